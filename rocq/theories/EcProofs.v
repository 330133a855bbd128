(** Proofs about ECP. *)
From Coq Require Import Field_theory Ring Field Bool.
From Verif Require Import EcModel EcSpec.

Section EcP.
Variable F : Type.
Variables (f0 f1 : F) (fadd fsub fmul fdiv : F -> F -> F) (fopp finv : F -> F) (feqb : F -> F -> bool).
Hypothesis FT : field_theory f0 f1 fadd fmul fsub fopp fdiv finv eq.
Hypothesis N2 : fadd f1 f1 <> f0.
Hypothesis EQ : forall x y, feqb x y = true <-> x = y.
Local Infix "+" := fadd. Local Infix "-" := fsub. Local Infix "*" := fmul.
Local Notation "0" := f0. Local Notation "1" := f1. Local Notation "- x" := (fopp x).
Add Field ecfield : FT.
Local Notation on_curve := (on_curve F fadd fmul).
Local Notation meets := (meets F fadd fsub fmul).
Local Notation is_sum := (is_sum F fadd fsub fmul fopp).

Definition affine (p : point F) : option (F * F) := if identity p then None else Some (px p, py p).

Lemma mul_0 x y : x * y = 0 -> x <> 0 -> y = 0.
Proof. intros H N. transitivity (finv x * (x * y)). { field. auto. } rewrite H. ring. Qed.
Lemma sub_0 x y : x - y = 0 -> x = y. Proof. intros H. transitivity (x - y + y); [ring|]. rewrite H. ring. Qed.
Lemma eqb_neq x y : feqb x y = false -> x <> y.
Proof. intros H E. apply EQ in E. congruence. Qed.
Lemma div_mul x y : y <> 0 -> fdiv x y * y = x. Proof. intros. field. auto. Qed.
Lemma two y : y <> 0 -> y + y <> 0.
Proof. intros N E. apply N2. apply (mul_0 y); auto. transitivity (y + y); [ring|auto]. Qed.

(** The line through two points, or the tangent: the remaining linear polynomial vanishes. *)
Lemma chord a b x1 y1 x2 y2 t : y1 * y1 = x1 * x1 * x1 + a * x1 + b -> y2 * y2 = x2 * x2 * x2 + a * x2 + b -> x2 - x1 <> 0 -> t * (x2 - x1) = y2 - y1 ->
  meets a b t (y1 - t * x1) x1 x2 (t * t - x1 - x2) /\ y2 = t * x2 + (y1 - t * x1).
Proof.
  intros H1 H2 N E. set (m := y1 - t * x1). set (x3 := t * t - x1 - x2).
  assert (Y2 : y2 = t * x2 + m). { transitivity (y2 - y1 + y1); [ring|]. rewrite <- E. unfold m. ring. }
  set (u := a - (1 + 1) * t * m - (x1 * x2 + x1 * x3 + x2 * x3)). set (v := b - m * m + x1 * x2 * x3).
  assert (U1 : u * x1 + v = 0). { transitivity (x1 * x1 * x1 + a * x1 + b - y1 * y1); [unfold u, v, m, x3; ring|]. rewrite H1. ring. }
  assert (U2 : u * x2 + v = 0). { transitivity (x2 * x2 * x2 + a * x2 + b - (t * x2 + m) * (t * x2 + m)); [unfold u, v, x3; ring|]. rewrite <- Y2, H2. ring. }
  assert (U : u = 0). { apply (mul_0 (x2 - x1)); auto. transitivity (u * x2 + v - (u * x1 + v)); [ring|]. rewrite U1, U2. ring. }
  assert (V : v = 0). { rewrite <- U1, U. ring. }
  split; auto. intros x. apply sub_0. transitivity (u * x + v); [unfold u, v, x3; ring|]. rewrite U, V. ring.
Qed.
Lemma tangent a b x y t : y * y = x * x * x + a * x + b -> t * (y + y) = x * x + x * x + x * x + a -> meets a b t (y - t * x) x x (t * t - x - x).
Proof.
  intros H E. set (m := y - t * x). set (x3 := t * t - x - x).
  set (u := a - (1 + 1) * t * m - (x * x + x * x3 + x * x3)). set (v := b - m * m + x * x * x3).
  assert (U : u = 0). { transitivity (x * x + x * x + x * x + a - t * (y + y)); [unfold u, m, x3; ring|]. rewrite E. ring. }
  assert (V : v = 0). { transitivity (u * x + v); [rewrite U; ring|]. transitivity (x * x * x + a * x + b - y * y); [unfold u, v, m, x3; ring|]. rewrite H. ring. }
  intros z. apply sub_0. transitivity (u * z + v); [unfold u, v, x3; ring|]. rewrite U, V. ring.
Qed.
(** The sum is on the curve. *)
Lemma sum_on_curve a b P Q R : on_curve a b P -> on_curve a b Q -> is_sum a b P Q R -> on_curve a b R.
Proof.
  destruct P as [[x1 y1]|]; [|cbn; intros; subst; auto]. destruct Q as [[x2 y2]|]; [|cbn; intros; subst; auto]. cbn [EcSpec.is_sum]. intros _ _ [(_ & _ & ->)|(_ & l & m & x3 & y3 & -> & M & _ & _ & Y)]; [exact I|]. cbn.
  specialize (M x3). transitivity ((l * x3 + m) * (l * x3 + m)). { rewrite <- Y. ring. } symmetry. apply sub_0. rewrite M. ring.
Qed.

(** Two points have one sum. *)
Lemma opp_inj x y : - x = - y -> x = y. Proof. intros E. transitivity (- - x); [ring|]. rewrite E. ring. Qed.
Lemma sum_unique a b P Q R R' : is_sum a b P Q R -> is_sum a b P Q R' -> R = R'.
Proof.
  destruct P as [[x1 y1]|]; [|cbn; congruence]. destruct Q as [[x2 y2]|]; [|cbn; congruence]. cbn [EcSpec.is_sum].
  intros [(E1 & E2 & ->)|(N & l & m & x3 & y3 & -> & M & A1 & A2 & A3)] [(E1' & E2' & ->)|(N' & l' & m' & x3' & y3' & -> & M' & A1' & A2' & A3')]; try tauto.
  assert (G : l = l' /\ x3 = x3').
  { assert (D : forall x, (l' * x + m') * (l' * x + m') - (l * x + m) * (l * x + m) = (x - x1) * (x - x2) * (x3' - x3)).
    { intros x. transitivity (x * x * x + a * x + b - (l * x + m) * (l * x + m) - (x * x * x + a * x + b - (l' * x + m') * (l' * x + m'))); [ring|]. rewrite M, M'. ring. }
    assert (EM : m = y1 - l * x1) by (rewrite A1; ring). assert (EM' : m' = y1 - l' * x1) by (rewrite A1'; ring). subst m m'.
    destruct (feqb x1 x2) eqn:EX.
    - apply EQ in EX. subst x2. assert (Y : y2 = y1) by (rewrite A2; ring). subst y2. assert (Y0 : y1 + y1 <> 0). { intros Z. apply N. split; auto. apply sub_0. transitivity (y1 + y1); [ring|auto]. }
      pose proof (D (x1 + 1)) as D1. pose proof (D (x1 - 1)) as D2. assert (L : l = l').
      { symmetry. apply sub_0. apply (mul_0 (y1 + y1)); auto. apply (mul_0 (1 + 1)); auto.
        transitivity ((l' * (x1 + 1) + (y1 - l' * x1)) * (l' * (x1 + 1) + (y1 - l' * x1)) - (l * (x1 + 1) + (y1 - l * x1)) * (l * (x1 + 1) + (y1 - l * x1)) - ((l' * (x1 - 1) + (y1 - l' * x1)) * (l' * (x1 - 1) + (y1 - l' * x1)) - (l * (x1 - 1) + (y1 - l * x1)) * (l * (x1 - 1) + (y1 - l * x1)))); [ring|]. rewrite D1, D2. ring. }
      split; auto. subst l'. symmetry. apply sub_0. transitivity ((x1 + 1 - x1) * (x1 + 1 - x1) * (x3' - x3)); [ring|]. rewrite <- D1. ring.
    - apply eqb_neq in EX. assert (L : l = l'). { apply sub_0. apply (mul_0 (x2 - x1)); [|intros Z; apply EX; symmetry; apply sub_0; auto]. transitivity (l * x2 + (y1 - l * x1) - (l' * x2 + (y1 - l' * x1))); [ring|]. rewrite <- A2, <- A2'. ring. }
      split; auto. subst l'. symmetry. apply sub_0. apply (mul_0 (1 + 1)); auto. transitivity ((x1 + 1 - x1) * (x1 + 1 - x2) * (x3' - x3) + (x1 - 1 - x1) * (x1 - 1 - x2) * (x3' - x3)); [ring|]. rewrite <- !D. ring. }
  destruct G as [<- <-]. assert (m = m') by (transitivity (y1 - l * x1); [rewrite A1|rewrite A1']; ring). subst m'. do 2 f_equal. apply opp_inj. congruence.
Qed.
Lemma sum_comm a b P Q R : is_sum a b P Q R -> is_sum a b Q P R.
Proof.
  destruct P as [[x1 y1]|], Q as [[x2 y2]|]; cbn [EcSpec.is_sum]; auto; try congruence. intros [(E1 & E2 & ->)|(N & l & m & x3 & y3 & -> & M & A1 & A2 & A3)].
  - left. split; auto. split; auto. rewrite E2. ring.
  - right. split. { intros [E1 E2]. apply N. split; auto. rewrite E2. ring. } exists l, m, x3, y3. split; auto. split; auto. intros x. rewrite M. ring.
Qed.

Lemma double_spec a b mR P : on_curve a b (affine (deref mR P)) ->
  let '(r, mR') := ecp_double F f0 fadd fsub fmul fdiv feqb a mR P in is_sum a b (affine (deref mR P)) (affine (deref mR P)) (affine (deref mR' r)).
Proof.
  intros C. unfold ecp_double. destruct (deref mR P) as [i x y] eqn:D. unfold affine in *. cbn [identity px py] in *. destruct i; cbn [orb]; [reflexivity|]. destruct (feqb y f0) eqn:E0.
  - apply EQ in E0. subst y. cbn. left. split; auto. split; auto. ring.
  - apply eqb_neq in E0. set (t := fdiv _ (y + y)).
    assert (T : t * (y + y) = x * x + x * x + x * x + a) by (unfold t; apply div_mul; apply two; auto). clearbody t. cbn [deref identity px py affine].
    replace (px (deref {| identity := identity mR; px := px mR; py := py mR |} P)) with x by (destruct P; cbn in *; rewrite ?D; subst; reflexivity).
    cbn. right. split. { intros [_ Q]. apply (two y E0). rewrite Q at 2. ring. }
    exists t, (y - t * x). eexists. eexists. split; [reflexivity|]. split; [apply tangent; auto|]. repeat split; ring.
Qed.
Lemma add_spec a b mR P Q : on_curve a b (affine (deref mR P)) -> on_curve a b (affine (deref mR Q)) ->
  let '(r, mR') := ecp_add F f0 fadd fsub fmul fdiv feqb a mR P Q in is_sum a b (affine (deref mR P)) (affine (deref mR Q)) (affine (deref mR' r)).
Proof.
  intros C1 C2. unfold ecp_add. pose proof (double_spec a b mR P C1) as DS. destruct (deref mR P) as [i1 x1 y1] eqn:D1. destruct (deref mR Q) as [i2 x2 y2] eqn:D2. cbn [identity px py].
  destruct i1. { cbn [affine identity]. rewrite D2. reflexivity. } destruct i2. { rewrite D1. cbn. reflexivity. }
  destruct (feqb x1 x2) eqn:EX.
  - apply EQ in EX. subst x2. destruct (feqb y1 y2) eqn:EY. { apply EQ in EY. subst y2. exact DS. }
    apply eqb_neq in EY. cbn in *. left. split; auto. split; auto. apply sub_0. apply (mul_0 (y1 - y2)). 2: { intros Z. apply EY, sub_0. auto. } transitivity (y1 * y1 - y2 * y2); [ring|]. rewrite C1, C2. ring.
  - apply eqb_neq in EX. assert (N : x2 - x1 <> 0) by (intros Z; apply EX; symmetry; apply sub_0; auto). set (t := fdiv (y2 - y1) (x2 - x1)). assert (T : t * (x2 - x1) = y2 - y1) by (unfold t; apply div_mul; auto). clearbody t. cbn in C1, C2.
    destruct (chord a b x1 y1 x2 y2 t C1 C2 N T) as [M Y2]. cbn. right. split; [tauto|]. exists t, (y1 - t * x1). eexists. eexists. split; [reflexivity|]. split; [exact M|]. split; [ring|]. split; [exact Y2|]. ring.
Qed.
Lemma inverse_spec mR P : let '(r, mR') := ecp_inverse F fopp mR P in
  affine (deref mR' r) = match affine (deref mR P) with None => None | Some (x, y) => Some (x, - y) end.
Proof. unfold ecp_inverse. destruct P as [[[|] x y]|]; [reflexivity|reflexivity|]. destruct mR as [[|] x y]; reflexivity. Qed.
Lemma opp_sq y : - y * - y = y * y. Proof. ring. Qed.
Lemma equal_spec p q : ecp_equal F feqb p q = true <-> affine p = affine q.
Proof.
  destruct p as [[|] x1 y1], q as [[|] x2 y2]; cbn; try (split; congruence). rewrite andb_true_iff, !EQ. split; [intros [-> ->]; reflexivity|]. intros E. inversion E. auto.
Qed.
End EcP.
