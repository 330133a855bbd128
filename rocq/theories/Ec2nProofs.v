(** Proofs about EC2N. *)
From Coq Require Import Field_theory Ring Field Bool.
From Verif Require Import EcModel EcProofs Ec2nModel Ec2nSpec.

Section Ec2P.
Variable F : Type.
Variables (f0 f1 : F) (fadd fsub fmul fdiv : F -> F -> F) (fopp finv : F -> F) (feqb : F -> F -> bool).
Hypothesis FT : field_theory f0 f1 fadd fmul fsub fopp fdiv finv eq.
Hypothesis C2 : fadd f1 f1 = f0.
Hypothesis EQ : forall x y, feqb x y = true <-> x = y.
Local Infix "+" := fadd. Local Infix "-" := fsub. Local Infix "*" := fmul.
Local Notation "0" := f0. Local Notation "1" := f1. Local Notation "- x" := (fopp x).

(** Coefficients modulo two. *)
Definition phi (b : bool) : F := if b then f1 else f0.
Lemma two_x x : x + x = 0.
Proof. transitivity ((1 + 1) * x). { rewrite (Rdistr_l (F_R FT)), (Rmul_1_l (F_R FT)). reflexivity. } rewrite C2. apply (ARmul_0_l (Rth_ARth (Eqsth F) (Eq_ext fadd fmul fopp) (F_R FT))). Qed.
Lemma opp_x x : - x = x.
Proof. pose proof (F_R FT) as R. transitivity (- x + (x + x)). { rewrite two_x, (Radd_comm R), (Radd_0_l R). reflexivity. } rewrite (Radd_assoc R), (Radd_comm R (- x)), (Ropp_def R), (Radd_0_l R). reflexivity. Qed.
Lemma sub_x x y : x - y = x + y.
Proof. rewrite (Rsub_def (F_R FT)), opp_x. reflexivity. Qed.
Lemma phi_morph : ring_morph 0 1 fadd fmul fsub fopp eq false true xorb andb xorb (fun b => b) Bool.eqb phi.
Proof.
  pose proof (F_R FT) as R. constructor; try reflexivity.
  - intros [|] [|]; cbn; rewrite ?C2, ?(Radd_0_l R); auto. rewrite (Radd_comm R), (Radd_0_l R). reflexivity.
  - intros [|] [|]; rewrite sub_x; cbn; rewrite ?C2, ?(Radd_0_l R); auto. rewrite (Radd_comm R), (Radd_0_l R). reflexivity.
  - intros [|] [|]; cbn; rewrite ?(Rmul_1_l R); auto; symmetry; apply (ARmul_0_l (Rth_ARth (Eqsth F) (Eq_ext fadd fmul fopp) R)).
  - intros [|]; cbn; rewrite opp_x; reflexivity.
  - intros x y E. apply eqb_prop in E. subst. reflexivity.
Qed.
Ltac f2const t := match t with f0 => constr:(false) | f1 => constr:(true) | _ => InitialRing.NotConstant end.
Add Ring ec2ring : (F_R FT) (morphism phi_morph, constants [f2const]).

Local Notation on_curve := (on_curve2 F fadd fmul).
Local Notation meets := (meets2 F fadd fsub fmul).
Local Notation is_sum := (is_sum2 F fadd fsub fmul).
Local Notation neg2 := (neg2 F fadd).
Local Notation affine := (affine F).

Lemma mul_0' x y : x * y = 0 -> x <> 0 -> y = 0.
Proof. intros H N. transitivity (finv x * x * y). { rewrite (Finv_l FT) by auto. ring. } transitivity (finv x * (x * y)); [ring|]. rewrite H. ring. Qed.
Lemma add_0' x y : x + y = 0 -> x = y. Proof. intros H. transitivity (x + y + y); [ring|]. rewrite H. ring. Qed.
Lemma eqb_neq' x y : feqb x y = false -> x <> y. Proof. intros H E. apply EQ in E. congruence. Qed.
Lemma div_mul' x y : y <> 0 -> fdiv x y * y = x.
Proof. intros. rewrite (Fdiv_def FT). transitivity (x * (finv y * y)); [ring|]. rewrite (Finv_l FT) by auto. ring. Qed.

Lemma chord2 a b x1 y1 x2 y2 t : y1 * y1 + x1 * y1 = x1 * x1 * x1 + a * x1 * x1 + b -> y2 * y2 + x2 * y2 = x2 * x2 * x2 + a * x2 * x2 + b -> x1 + x2 <> 0 -> t * (x1 + x2) = y1 + y2 ->
  meets a b t (y1 + t * x1) x1 x2 (t * t + t + x1 + x2 + a) /\ y2 = t * x2 + (y1 + t * x1).
Proof.
  intros H1 H2 N E. set (m := y1 + t * x1). set (x3 := t * t + t + x1 + x2 + a).
  assert (Y2 : y2 = t * x2 + m). { transitivity (y1 + y2 + y1); [ring|]. rewrite <- E. unfold m. ring. }
  set (u := m + (x1 * x2 + x1 * x3 + x2 * x3)). set (v := b + m * m + x1 * x2 * x3).
  assert (U1 : u * x1 + v = 0). { transitivity (x1 * x1 * x1 + a * x1 * x1 + b + (y1 * y1 + x1 * y1)); [unfold u, v, m, x3; ring|]. rewrite H1. ring. }
  assert (U2 : u * x2 + v = 0). { transitivity (x2 * x2 * x2 + a * x2 * x2 + b + ((t * x2 + m) * (t * x2 + m) + x2 * (t * x2 + m))); [unfold u, v, x3; ring|]. rewrite <- Y2, H2. ring. }
  assert (U : u = 0). { apply (mul_0' (x1 + x2)); auto. transitivity (u * x1 + v + (u * x2 + v)); [ring|]. rewrite U1, U2. ring. }
  assert (V : v = 0). { rewrite <- U1, U. ring. }
  split; auto. intros x. apply add_0'. transitivity (u * x + v); [unfold u, v, x3; ring|]. rewrite U, V. ring.
Qed.
Lemma tangent2 a b x y t : y * y + x * y = x * x * x + a * x * x + b -> (t + x) * x = y -> meets a b t (x * x) x x (t * t + t + a) /\ y = t * x + x * x.
Proof.
  intros H E. assert (Y : y = t * x + x * x) by (rewrite <- E; ring). split; auto. set (x3 := t * t + t + a).
  set (v := b + x * x * x * x + x * x * x3). assert (V : v = 0). { transitivity (x * x * x + a * x * x + b + (y * y + x * y)); [rewrite Y; unfold v, x3; ring|]. rewrite H. ring. }
  intros z. apply add_0'. transitivity v; [unfold v, x3; ring|auto].
Qed.
Lemma sum_on_curve2 a b P Q R : on_curve a b P -> on_curve a b Q -> is_sum a b P Q R -> on_curve a b R.
Proof.
  destruct P as [[x1 y1]|]; [|cbn; intros; subst; auto]. destruct Q as [[x2 y2]|]; [|cbn; intros; subst; auto]. cbn [Ec2nSpec.is_sum2]. intros _ _ [(_ & ->)|(_ & l & m & x3 & -> & M & _)]; [exact I|]. cbn.
  specialize (M x3). apply add_0'. transitivity ((x3 - x1) * (x3 - x2) * (x3 - x3)); [|ring]. rewrite <- M. ring.
Qed.
Lemma sum_comm2 a b P Q R : is_sum a b P Q R -> is_sum a b Q P R.
Proof.
  destruct P as [[x1 y1]|], Q as [[x2 y2]|]; cbn [Ec2nSpec.is_sum2]; auto; try congruence. intros [(E & ->)|(N & l & m & x3 & -> & M & A1 & A2)].
  - left. split; auto. cbn in *. inversion E. do 2 f_equal. ring.
  - right. split. { cbn in *. intros E. apply N. inversion E. do 2 f_equal. ring. } exists l, m, x3. split; auto. split; auto. intros x. rewrite M. ring.
Qed.
(** In a field of more than two elements two points have one sum. *)
Lemma sum_unique2 a b e P Q R R' : e <> 0 -> e <> 1 -> is_sum a b P Q R -> is_sum a b P Q R' -> R = R'.
Proof.
  intros E0 E1. assert (E1' : 1 + e <> 0) by (intros Z; apply E1; symmetry; apply add_0'; auto).
  destruct P as [[x1 y1]|]; [|cbn; congruence]. destruct Q as [[x2 y2]|]; [|cbn; congruence]. cbn [Ec2nSpec.is_sum2].
  intros [(Ea & ->)|(N & l & m & x3 & -> & M & A1 & A2)] [(Eb & ->)|(N' & l' & m' & x3' & -> & M' & A1' & A2')]; try tauto.
  assert (G : l = l' /\ x3 = x3').
  { assert (D : forall x, (l' * x + m') * (l' * x + m') + x * (l' * x + m') + ((l * x + m) * (l * x + m) + x * (l * x + m)) = (x - x1) * (x - x2) * (x3' + x3)).
    { intros x. transitivity (x * x * x + a * x * x + b - ((l * x + m) * (l * x + m) + x * (l * x + m)) + (x * x * x + a * x * x + b - ((l' * x + m') * (l' * x + m') + x * (l' * x + m')))); [ring|]. rewrite M, M'. ring. }
    assert (EM : m = y1 + l * x1) by (rewrite A1; ring). assert (EM' : m' = y1 + l' * x1) by (rewrite A1'; ring). subst m m'.
    destruct (feqb x1 x2) eqn:EX.
    - apply EQ in EX. subst x2. assert (Y : y2 = y1) by (rewrite A2; ring). subst y2. assert (X0 : x1 <> 0). { intros Z. apply N. cbn. do 2 f_equal. rewrite Z. ring. }
      set (d := l + l'). set (c := x3' + x3). assert (K : forall z, z <> 0 -> x1 * d = z * (c + d * d + d)).
      { intros z Hz. apply add_0'. apply (mul_0' z); auto. pose proof (D (x1 + z)) as Dz. apply add_0' . transitivity ((l' * (x1 + z) + (y1 + l' * x1)) * (l' * (x1 + z) + (y1 + l' * x1)) + (x1 + z) * (l' * (x1 + z) + (y1 + l' * x1)) + ((l * (x1 + z) + (y1 + l * x1)) * (l * (x1 + z) + (y1 + l * x1)) + (x1 + z) * (l * (x1 + z) + (y1 + l * x1))) + (x1 + z - x1) * (x1 + z - x1) * c); [unfold d, c; ring|]. rewrite Dz. unfold c. ring. }
      assert (K0 : c + d * d + d = 0). { apply (mul_0' (1 + e)); auto. transitivity (1 * (c + d * d + d) + e * (c + d * d + d)); [ring|]. rewrite <- (K 1), <- (K e); auto; [ring|]. apply (F_1_neq_0 FT). }
      assert (D0 : d = 0). { apply (mul_0' x1); auto. rewrite (K e), K0 by auto. ring. }
      split; [apply add_0'; exact D0|]. symmetry. apply add_0'. fold c. rewrite <- K0, D0. ring.
    - apply eqb_neq' in EX. assert (X : x1 + x2 <> 0) by (intros Z; apply EX, add_0'; auto). assert (L : l = l'). { apply add_0'. apply (mul_0' (x1 + x2)); auto. transitivity (l * x2 + (y1 + l * x1) + (l' * x2 + (y1 + l' * x1))); [ring|]. rewrite <- A2, <- A2'. ring. }
      split; auto. subst l'. symmetry. set (c := x3' + x3) in *. assert (K : forall z, z <> 0 -> (z + (x1 + x2)) * c = 0). { intros z Hz. apply (mul_0' z); auto. transitivity ((x1 + z - x1) * (x1 + z - x2) * c); [ring|]. rewrite <- D. ring. }
      apply add_0'. fold c. apply (mul_0' (1 + e)); auto. transitivity ((1 + (x1 + x2)) * c + (e + (x1 + x2)) * c); [ring|]. rewrite !K; auto; [ring|]. apply (F_1_neq_0 FT). }
  destruct G as [<- <-]. assert (m = m') by (transitivity (y1 + l * x1); [rewrite A1|rewrite A1']; ring). subst m'. reflexivity.
Qed.

Lemma equal_spec2 p q : e2_equal F feqb p q = true <-> affine p = affine q.
Proof.
  destruct p as [[|] x1 y1], q as [[|] x2 y2]; cbn; try (split; congruence). rewrite andb_true_iff, !EQ. split; [intros [-> ->]; reflexivity|]. intros E. inversion E. auto.
Qed.
Lemma double_spec2 a b mR P : on_curve a b (affine (deref mR P)) ->
  let '(r, mR') := e2_double F f0 fadd fmul fdiv feqb a mR P in is_sum a b (affine (deref mR P)) (affine (deref mR P)) (affine (deref mR' r)).
Proof.
  intros C. unfold e2_double. destruct (deref mR P) as [i x y] eqn:D. unfold EcProofs.affine in *. cbn [identity px py] in *. destruct i. { rewrite D. reflexivity. } destruct (feqb x f0) eqn:E0.
  - apply EQ in E0. subst x. cbn. left. split; auto. do 2 f_equal. ring.
  - apply eqb_neq' in E0. set (t := fdiv y x + x). assert (T : (t + x) * x = y). { transitivity (fdiv y x * x); [unfold t; ring|]. apply div_mul'; auto. } clearbody t.
    destruct (tangent2 a b x y t C T) as [M Y]. cbn. right. split. { intros Q. apply E0. inversion Q as [Q1]. transitivity (x + y + y); [ring|]. rewrite <- Q1. ring. }
    exists t, (x * x), (t * t + t + a). split; [|auto]. do 2 f_equal. ring.
Qed.
Lemma add_spec2 a b mR P Q : on_curve a b (affine (deref mR P)) -> on_curve a b (affine (deref mR Q)) ->
  let '(r, mR') := e2_add F f0 fadd fmul fdiv feqb a mR P Q in is_sum a b (affine (deref mR P)) (affine (deref mR Q)) (affine (deref mR' r)).
Proof.
  intros C1 C3. unfold e2_add. pose proof (double_spec2 a b mR P C1) as DS. pose proof (equal_spec2 (deref mR P) (deref mR Q)) as ES. destruct (e2_equal F feqb (deref mR P) (deref mR Q)).
  - assert (E : affine (deref mR P) = affine (deref mR Q)) by (apply ES; auto). rewrite <- E. destruct (identity (deref mR P)) eqn:I1. { rewrite <- E. unfold EcProofs.affine. rewrite I1. reflexivity. } destruct (identity (deref mR Q)) eqn:I2. { unfold EcProofs.affine in E. rewrite I1, I2 in E. discriminate. } exact DS.
  - clear DS. assert (NE : affine (deref mR P) <> affine (deref mR Q)) by (intros E; apply ES in E; discriminate). clear ES. destruct (deref mR P) as [i1 x1 y1] eqn:D1. destruct (deref mR Q) as [i2 x2 y2] eqn:D2. cbn [identity px py].
    destruct i1. { rewrite D2. reflexivity. } destruct i2. { rewrite D1. reflexivity. } cbn in C1, C3, NE.
    destruct (feqb x1 x2 && feqb y1 (x2 + y2)) eqn:EI.
    + apply andb_true_iff in EI. destruct EI as [EX EY]. apply EQ in EX. apply EQ in EY. subst x1 y1. cbn. left. split; auto. do 2 f_equal. ring.
    + assert (X : x1 + x2 <> 0).
      { intros Z. apply add_0' in Z. subst x2. assert (E1 : feqb x1 x1 = true) by (apply EQ; auto). rewrite E1 in EI. cbn [andb] in EI. apply eqb_neq' in EI. apply EI. apply add_0'. apply (mul_0' (y1 + y2)). 2: { intros Z. apply NE. do 2 f_equal. apply add_0'; auto. }
        transitivity (y1 * y1 + x1 * y1 + (y2 * y2 + x1 * y2)); [ring|]. rewrite C1, C3. ring. }
      set (t := fdiv (y1 + y2) (x1 + x2)). assert (T : t * (x1 + x2) = y1 + y2) by (unfold t; apply div_mul'; auto). clearbody t. destruct (chord2 a b x1 y1 x2 y2 t C1 C3 X T) as [M Y2].
      replace (px (deref (mkPoint (identity mR) (px mR) (y1 + t * (t * t + t + x2 + a))) P)) with x1 by (destruct P; cbn in *; rewrite D1; reflexivity).
      cbn. right. split. { intros Q'. inversion Q' as [[Q1 Q2]]. apply X. rewrite Q1. ring. }
      exists t, (y1 + t * x1), (t * t + t + x1 + x2 + a). split; [do 2 f_equal; ring|]. split; [exact M|]. split; [ring|exact Y2].
Qed.
Lemma inverse_spec2 mR P : let '(r, mR') := e2_inverse F fadd mR P in affine (deref mR' r) = neg2 (affine (deref mR P)).
Proof. unfold e2_inverse. destruct P as [[[|] x y]|]; [reflexivity|reflexivity|]. destruct mR as [[|] x y]; reflexivity. Qed.
Lemma neg_on_curve a b P : on_curve a b P -> on_curve a b (neg2 P).
Proof. destruct P as [[x y]|]; cbn; auto. intros C. rewrite <- C. ring. Qed.
End Ec2P.
