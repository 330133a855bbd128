(** Proofs about projective doubling and simultaneous inversion. *)
From Coq Require Import Field_theory Ring Field Bool List Lia.
From Verif Require Import EcModel EcSpec EcProofs EcProjModel EcProjSpec.
Import ListNotations.

Section EcPP.
Variable F : Type.
Variables (f0 f1 : F) (fadd fsub fmul fdiv : F -> F -> F) (fopp finv fhalf : F -> F) (feqb : F -> F -> bool).
Hypothesis FT : field_theory f0 f1 fadd fmul fsub fopp fdiv finv eq.
Hypothesis N2 : fadd f1 f1 <> f0.
Hypothesis EQ : forall x y, feqb x y = true <-> x = y.
Hypothesis HALF : forall x, fadd (fhalf x) (fhalf x) = x.
Local Infix "+" := fadd. Local Infix "-" := fsub. Local Infix "*" := fmul.
Local Notation "0" := f0. Local Notation "1" := f1. Local Notation "- x" := (fopp x).
Add Field ecpfield : FT.
Local Notation on_curve := (on_curve F fadd fmul).
Local Notation is_sum := (is_sum F fadd fsub fmul fopp).
Local Notation stands_for := (stands_for F f0 fmul).
Local Notation doubled := (doubled F fadd fsub fmul fopp).
Local Notation dbl := (pd_double F fadd fsub fmul fhalf).

Lemma pmul_0 x y : x * y = 0 -> x <> 0 -> y = 0. Proof. apply (mul_0 F f0 f1 fadd fsub fmul fdiv fopp finv FT). Qed.
Lemma pmul_n0 x y : x <> 0 -> y <> 0 -> x * y <> 0. Proof. intros A B E. apply B. apply (pmul_0 x y E A). Qed.
Lemma ptwo y : y <> 0 -> y + y <> 0. Proof. intros A E. apply N2. apply (pmul_0 y); auto. transitivity (y + y); [ring|auto]. Qed.
Lemma half_eq x y : y + y = x -> fhalf x = y.
Proof.
  intros E. pose proof (HALF x) as H. assert (G : fhalf x - y = 0). { apply (pmul_0 (1 + 1)); auto. transitivity (fhalf x + fhalf x - (y + y)); [ring|]. rewrite H, E. ring. }
  transitivity (fhalf x - y + y); [ring|]. rewrite G. ring.
Qed.

Definition pd_inv (a b : F) (d : pd F) (P : option (F * F)) : Prop :=
  stands_for (pX d) (pY d) (pZ d) P /\ on_curve a b P /\ aZ4 d * sixteenY4 d = a * (pZ d * pZ d * pZ d * pZ d).
Lemma init_inv a b Q : on_curve a b (affine F Q) -> pd_inv a b (pd_init F f0 f1 a Q) (affine F Q).
Proof.
  unfold pd_inv, pd_init, affine. destruct Q as [[|] x y]; cbn; intros C.
  - split; auto. split; auto. ring.
  - split; [|split; auto; ring]. split; [apply (F_1_neq_0 FT)|]. split; ring.
Qed.
Lemma double_inv a b d P : pd_inv a b d P -> exists R, is_sum a b P P R /\ pd_inv a b (dbl d) R.
Proof.
  intros (S & C & I). destruct d as [X Y Z s z4]. cbn in S, I.
  assert (I' : aZ4 (dbl (mkPd X Y Z s z4)) * sixteenY4 (dbl (mkPd X Y Z s z4)) = a * (pZ (dbl (mkPd X Y Z s z4)) * pZ (dbl (mkPd X Y Z s z4)) * pZ (dbl (mkPd X Y Z s z4)) * pZ (dbl (mkPd X Y Z s z4)))).
  { cbn. rewrite I. ring. }
  destruct P as [[x y]|].
  - cbn in S. destruct S as (Z0 & EX & EY). cbn in C. destruct (feqb y 0) eqn:E0.
    + apply EQ in E0. exists None. split. { left. split; auto. split; auto. rewrite E0. ring. } split; [|split; [exact Logic.I|exact I']]. cbn. rewrite EY, E0. ring.
    + assert (Y0 : y <> 0) by (intros E; apply EQ in E; congruence). pose proof (ptwo y Y0) as YY. set (t := fdiv (x * x + x * x + x * x + a) (y + y)).
      assert (T : t * (y + y) = x * x + x * x + x * x + a) by (unfold t; apply (div_mul F f0 f1 fadd fsub fmul fdiv fopp finv FT); auto). clearbody t.
      assert (SUM : is_sum a b (Some (x, y)) (Some (x, y)) (Some (t * t - x - x, t * (x - (t * t - x - x)) - y))).
      { right. split. { intros [_ Q]. apply YY. rewrite Q at 2. ring. } exists t, (y - t * x). eexists. eexists. split; [reflexivity|]. split; [apply (tangent F f0 f1 fadd fsub fmul fdiv fopp finv FT); auto|]. repeat split; ring. }
      exists (Some (t * t - x - x, t * (x - (t * t - x - x)) - y)). split; [exact SUM|]. split.
      * assert (EM : X * X + X * X + X * X + z4 * s = t * (y + y) * (Z * Z * Z * Z)). { rewrite I, T, EX. ring. }
        assert (H8 : fhalf ((Y + Y) * (Y + Y) * ((Y + Y) * (Y + Y))) = (1 + 1) * (1 + 1) * (1 + 1) * (Y * Y * Y * Y)) by (apply half_eq; ring).
        cbn. rewrite H8, EM. rewrite EX, EY. split. { apply pmul_n0; auto. replace (y * (Z * Z * Z) + y * (Z * Z * Z)) with ((y + y) * (Z * Z * Z)) by ring. repeat apply pmul_n0; auto. } split; ring.
      * split; [|exact I']. exact (sum_on_curve F f0 f1 fadd fsub fmul fdiv fopp finv FT a b (Some (x, y)) (Some (x, y)) _ C C SUM).
  - exists None. split; [reflexivity|]. split; [|split; [exact Logic.I|exact I']]. cbn in S. cbn. rewrite S. ring.
Qed.
Lemma doubles_inv a b Q n : on_curve a b (affine F Q) -> exists R, doubled a b (affine F Q) n R /\ pd_inv a b (Nat.iter n dbl (pd_init F f0 f1 a Q)) R.
Proof.
  intros C. induction n as [|n (R & D & I)]. { exists (affine F Q). split; [constructor|apply init_inv; auto]. }
  destruct (double_inv a b _ _ I) as (R' & S & I'). exists R'. split; [econstructor; eauto|exact I'].
Qed.

Lemma pairs_ind (Q : list F -> Prop) : Q [] -> (forall x, Q [x]) -> (forall x y r, Q r -> Q (x :: y :: r)) -> forall l, Q l.
Proof. intros H0 H1 H2. fix IH 1. intros [|x [|y r]]; [exact H0|exact (H1 x)|exact (H2 x y r (IH r))]. Qed.
Lemma pairs_len l : (length (pairs_mul F fmul l) <= length l)%nat.
Proof. induction l as [|x|x y r IH] using pairs_ind; cbn; lia. Qed.
Lemma inv_mul x y : x * y <> 0 -> y * finv (x * y) = finv x.
Proof. intros N. assert (A : x <> 0) by (intros E; apply N; rewrite E; ring). assert (B : y <> 0) by (intros E; apply N; rewrite E; ring). field. auto. Qed.
Lemma back_spec l : finv 0 = 0 -> pairs_back F f0 fmul finv feqb l (map finv (pairs_mul F fmul l)) = map finv l.
Proof.
  intros Z. induction l as [|x|x y r IH] using pairs_ind; [reflexivity|reflexivity|]. cbn. rewrite IH. destruct (feqb (finv (x * y)) 0) eqn:E; [reflexivity|].
  assert (N : x * y <> 0). { intros H. rewrite H, Z in E. assert (feqb 0 0 = true) by (apply EQ; auto). congruence. }
  rewrite (inv_mul x y N). replace (x * y) with (y * x) by ring. rewrite inv_mul; [reflexivity|]. intros H. apply N. rewrite <- H. ring.
Qed.
Lemma par_spec : finv 0 = 0 -> forall n l, (length l <= n)%nat -> par_inv F f0 fmul finv feqb n l = map finv l.
Proof.
  intros Z. induction n as [|n IH]; intros l L; [destruct l; [reflexivity|cbn in L; lia]|]. destruct l as [|x [|y r]]; [reflexivity|reflexivity|]. cbn [par_inv].
  rewrite IH by (cbn in *; pose proof (pairs_len r); lia). apply back_spec; auto.
Qed.
End EcPP.
