(** C101: the points of an EC2N curve and their sums. *)
From Coq Require Import Field_theory Ring Field Bool.
From Verif Require Import EcModel EcProofs Ec2nModel Ec2nSpec Ec2nProofs.

(** The field of four elements 0, 1, w, w + 1 for the examples, with w^2 = w + 1. *)
Inductive f4 := B0 | B1 | Bw | Bv.
Definition f4_add (x y : f4) : f4 :=
  match x, y with B0, z | z, B0 => z | B1, B1 | Bw, Bw | Bv, Bv => B0 | B1, Bw | Bw, B1 => Bv | B1, Bv | Bv, B1 => Bw | Bw, Bv | Bv, Bw => B1 end.
Definition f4_mul (x y : f4) : f4 :=
  match x, y with B0, _ | _, B0 => B0 | B1, z | z, B1 => z | Bw, Bw => Bv | Bv, Bv => Bw | Bw, Bv | Bv, Bw => B1 end.
Definition f4_inv (x : f4) : f4 := match x with Bw => Bv | Bv => Bw | _ => x end.
Definition f4_div (x y : f4) : f4 := f4_mul x (f4_inv y).
Definition f4_opp (x : f4) : f4 := x.
Definition f4_eqb (x y : f4) : bool := match x, y with B0, B0 | B1, B1 | Bw, Bw | Bv, Bv => true | _, _ => false end.
Lemma f4_field : even_field f4 B0 B1 f4_add f4_add f4_mul f4_div f4_opp f4_inv.
Proof.
  split; [|reflexivity]. constructor; [constructor; try (intros x y z; destruct x, y, z; reflexivity); try (intros x y; destruct x, y; reflexivity); intros x; destruct x; reflexivity|discriminate|reflexivity|].
  intros x N. destruct x; [congruence|reflexivity|reflexivity|reflexivity].
Qed.
Lemma f4_eqb_ok : forall x y, f4_eqb x y = true <-> x = y.
Proof. intros x y. destruct x, y; cbn; split; congruence. Qed.

(** Add gives the sum by chord and tangent of any two points of the curve, and it is on the curve; each argument may be a
    reference to the member that Add overwrites. *)
Theorem C101_add F f0 f1 fadd fsub fmul fdiv fopp finv (feqb : F -> F -> bool) :
  even_field F f0 f1 fadd fsub fmul fdiv fopp finv -> (forall x y, feqb x y = true <-> x = y) ->
  forall a b mR P Q, on_curve2 F fadd fmul a b (affine F (deref mR P)) -> on_curve2 F fadd fmul a b (affine F (deref mR Q)) ->
  let '(r, mR') := e2_add F f0 fadd fmul fdiv feqb a mR P Q in
  is_sum2 F fadd fsub fmul a b (affine F (deref mR P)) (affine F (deref mR Q)) (affine F (deref mR' r)) /\
  on_curve2 F fadd fmul a b (affine F (deref mR' r)).
Proof.
  intros [FT C2] EQ a b mR P Q H1 H2. pose proof (add_spec2 F f0 f1 fadd fsub fmul fdiv fopp finv feqb FT C2 EQ a b mR P Q H1 H2) as H. destruct (e2_add F f0 fadd fmul fdiv feqb a mR P Q) as [r mR']. split; auto.
  eapply (sum_on_curve2 F f0 f1 fadd fsub fmul fdiv fopp finv FT C2); [exact H1|exact H2|exact H].
Qed.
(** On y^2 + x y = x^3 + 1 over the four elements: (0, 1) + (w, 0) = (w + 1, 0), the second held in the member. *)
Example C101_add_case : let mR := mkPoint false Bw B0 in let P := Own (mkPoint false B0 B1) in
  on_curve2 f4 f4_add f4_mul B0 B1 (affine f4 (deref mR Res)) /\ on_curve2 f4 f4_add f4_mul B0 B1 (affine f4 (deref mR P)) /\
  (let '(r, mR') := e2_add f4 B0 f4_add f4_mul f4_div f4_eqb B0 mR P Res in affine f4 (deref mR' r) = Some (Bv, B0)).
Proof. repeat split. Qed.

(** Double gives the sum of a point with itself. *)
Theorem C101_double F f0 f1 fadd fsub fmul fdiv fopp finv (feqb : F -> F -> bool) :
  even_field F f0 f1 fadd fsub fmul fdiv fopp finv -> (forall x y, feqb x y = true <-> x = y) ->
  forall a b mR P, on_curve2 F fadd fmul a b (affine F (deref mR P)) ->
  let '(r, mR') := e2_double F f0 fadd fmul fdiv feqb a mR P in
  is_sum2 F fadd fsub fmul a b (affine F (deref mR P)) (affine F (deref mR P)) (affine F (deref mR' r)) /\
  on_curve2 F fadd fmul a b (affine F (deref mR' r)).
Proof.
  intros [FT C2] EQ a b mR P C. pose proof (double_spec2 F f0 f1 fadd fsub fmul fdiv fopp finv feqb FT C2 EQ a b mR P C) as H. destruct (e2_double F f0 fadd fmul fdiv feqb a mR P) as [r mR']. split; auto.
  eapply (sum_on_curve2 F f0 f1 fadd fsub fmul fdiv fopp finv FT C2); [exact C|exact C|exact H].
Qed.
Example C101_double_case :
  (let '(r, mR') := e2_double f4 B0 f4_add f4_mul f4_div f4_eqb B0 (mkPoint false Bw B0) Res in on_curve2 f4 f4_add f4_mul B0 B1 (Some (Bw, B0)) /\ affine f4 (deref mR' r) = Some (B1, B0)) /\
  (let '(r, mR') := e2_double f4 B0 f4_add f4_mul f4_div f4_eqb B0 (mkPoint false B0 B1) Res in affine f4 (deref mR' r) = None).
Proof. repeat split. Qed.

(** Inverse gives the negative; with it the sum is infinity.  Equal compares points. *)
Theorem C101_inverse F f0 f1 fadd fsub fmul fdiv fopp finv (feqb : F -> F -> bool) :
  even_field F f0 f1 fadd fsub fmul fdiv fopp finv -> (forall x y, feqb x y = true <-> x = y) ->
  (forall a b mR P, on_curve2 F fadd fmul a b (affine F (deref mR P)) ->
   let '(r, mR') := e2_inverse F fadd mR P in
   on_curve2 F fadd fmul a b (affine F (deref mR' r)) /\ is_sum2 F fadd fsub fmul a b (affine F (deref mR P)) (affine F (deref mR' r)) None) /\
  (forall p q, e2_equal F feqb p q = true <-> affine F p = affine F q).
Proof.
  intros [FT C2] EQ. split; [|intros; apply equal_spec2; auto]. intros a b mR P C. pose proof (inverse_spec2 F fadd mR P) as H. destruct (e2_inverse F fadd mR P) as [r mR']. rewrite H. split.
  - apply (neg_on_curve F f0 f1 fadd fsub fmul fdiv fopp finv FT C2). exact C.
  - destruct (affine F (deref mR P)) as [[x y]|]; cbn; [|auto]. left. auto.
Qed.
Example C101_inverse_case : (let '(r, mR') := e2_inverse f4 f4_add (mkPoint false Bw B0) Res in affine f4 (deref mR' r) = Some (Bw, Bw)) /\
  e2_equal f4 f4_eqb (mkPoint true Bw B1) (mkPoint true B0 B0) = true.
Proof. split; reflexivity. Qed.

(** In a field of more than two elements the specification has one sum for two points, and it does not depend on their
    order; hence neither does Add. *)
Theorem C101_sum_unique F f0 f1 fadd fsub fmul fdiv fopp finv (feqb : F -> F -> bool) e :
  even_field F f0 f1 fadd fsub fmul fdiv fopp finv -> e <> f0 -> e <> f1 -> (forall x y, feqb x y = true <-> x = y) ->
  forall a b P Q R R', is_sum2 F fadd fsub fmul a b P Q R -> is_sum2 F fadd fsub fmul a b P Q R' \/ is_sum2 F fadd fsub fmul a b Q P R' -> R = R'.
Proof.
  intros [FT C2] E0 E1 EQ a b P Q R R' H [H'|H']; apply (sum_unique2 F f0 f1 fadd fsub fmul fdiv fopp finv feqb FT C2 EQ a b e P Q R R' E0 E1 H); auto. apply (sum_comm2 F f0 f1 fadd fsub fmul fdiv fopp finv FT C2). auto.
Qed.
Theorem C101_add_commutes F f0 f1 fadd fsub fmul fdiv fopp finv (feqb : F -> F -> bool) e :
  even_field F f0 f1 fadd fsub fmul fdiv fopp finv -> e <> f0 -> e <> f1 -> (forall x y, feqb x y = true <-> x = y) ->
  forall a b mR P Q, on_curve2 F fadd fmul a b (affine F (deref mR P)) -> on_curve2 F fadd fmul a b (affine F (deref mR Q)) ->
  let '(r, m) := e2_add F f0 fadd fmul fdiv feqb a mR P Q in let '(r', m') := e2_add F f0 fadd fmul fdiv feqb a mR Q P in
  affine F (deref m r) = affine F (deref m' r').
Proof.
  intros HF E0 E1 EQ a b mR P Q C1 C2. pose proof (C101_add F f0 f1 fadd fsub fmul fdiv fopp finv feqb HF EQ a b mR P Q C1 C2) as H1. pose proof (C101_add F f0 f1 fadd fsub fmul fdiv fopp finv feqb HF EQ a b mR Q P C2 C1) as H2.
  destruct (e2_add F f0 fadd fmul fdiv feqb a mR P Q) as [r m]. destruct (e2_add F f0 fadd fmul fdiv feqb a mR Q P) as [r' m']. eapply (C101_sum_unique F f0 f1 fadd fsub fmul fdiv fopp finv feqb e HF E0 E1 EQ); [apply H1|right; apply H2].
Qed.
Example C101_add_commutes_case : Bw <> B0 /\ Bw <> B1 /\ exists a b mR P Q, on_curve2 f4 f4_add f4_mul a b (affine f4 (deref mR P)) /\ on_curve2 f4 f4_add f4_mul a b (affine f4 (deref mR Q)) /\ affine f4 (deref mR P) <> affine f4 (deref mR Q).
Proof. split; [discriminate|]. split; [discriminate|]. exists B0, B1, (mkPoint false Bw B0), Res, (Own (mkPoint false B0 B1)). repeat split. discriminate. Qed.

Print Assumptions C101_add.
Print Assumptions C101_double.
Print Assumptions C101_inverse.
Print Assumptions C101_sum_unique.
Print Assumptions C101_add_commutes.
