(** Exponentiation modulo an integer: the residues implement the multiplicative monoid of integers. *)
From Coq Require Import ZArith List Bool Arith Lia Permutation.
From Verif Require Import Base WordsModel WordsSpec WordsProofs WordsRecProofs WordsAsymProofs IntegerModel IntegerSpec IntegerProofs IntegerBitProofs IntegerDivProofs IntegerInvProofs ModModel ModSpec ModProofs AlgebraModel AlgebraSpec AlgebraProofs.
Import ListNotations.
Local Open Scope Z_scope.

Lemma Z_monoid : monoid Z.mul 1.
Proof. split; [intros; apply Z.mul_assoc|]. split; [intros; apply Z.mul_comm|]. intros. apply Z.mul_1_l. Qed.
Lemma multiple_pow n a : 0 <= n -> multiple Z.mul 1 n a = a ^ n.
Proof.
  intros H. unfold multiple. rewrite <- (Z2Nat.id n H) at 2. induction (Z.to_nat n) as [|k I]; [reflexivity|].
  change (a * Nat.iter k (Z.mul a) 1 = a ^ Z.of_nat (S k)). rewrite I. rewrite Nat2Z.inj_succ, Z.pow_succ_r by lia. reflexivity.
Qed.

Section Mod.
Variable w : Z.
Hypothesis Hwb : word_bits w.
Local Instance Hbig : bigw w := word_bits_big w Hwb.
Notation is_int := (is_int w).
Notation P := (WordsProofs.P w).

Section Ring.
Variables (ma : modarith) (vm : Z).
Hypothesis Hma : ma_ok w ma vm.
Definition rrep (x : integer) (a : Z) : Prop := exists v, is_int x v /\ 0 <= v < vm /\ cong vm v a.
Definition rrepb (x : integer) (a : Z) : Prop := exists v, is_int x v /\ cong vm v a.
Notation add := (fun a b => or0 (ma_multiply w ma a b)).
Notation dbl := (fun a => or0 (ma_square w ma a)).
Notation neg := (fun a => or0 (ma_mult_inverse w ma a)).
Lemma vm1 : 1 < vm. Proof. apply Hma. Qed.
Lemma radd x y a b : rrepb x a -> rrepb y b -> rrep (add x y) (a * b).
Proof.
  intros (v & Hv & Cv) (u & Hu & Cu). destruct (ma_multiply_int w Hwb ma vm Hma x y v u Hv Hu) as (r & E & Hr & Rr & _). cbv beta. rewrite E. exists ((v * u) mod vm). split; [exact Hr|]. split; [exact Rr|].
  eapply cong_trans; [apply cong_mod; pose proof vm1; lia|]. apply cong_mul; auto.
Qed.
Lemma rdbl x a : rrepb x a -> rrep (dbl x) (a * a).
Proof.
  intros (v & Hv & Cv). destruct (ma_square_int w Hwb ma vm Hma x v Hv) as (r & E & Hr & Rr & _). cbv beta. rewrite E. exists ((v * v) mod vm). split; [exact Hr|]. split; [exact Rr|].
  eapply cong_trans; [apply cong_mod; pose proof vm1; lia|]. apply cong_mul; auto.
Qed.
Lemma rsub x a : rrep x a -> rrepb x a. Proof. intros (v & H & _ & C). exists v. auto. Qed.
Lemma ring_implements : implements rrep Z.mul 1 Z.opp add dbl neg copy int_one false.
Proof.
  constructor.
  - intros. apply radd; apply rsub; auto.
  - intros. apply rdbl; apply rsub; auto.
  - discriminate.
  - intros x a (v & H & B & C). exists v. split; auto. apply (copy_int w). auto.
  - exists 1. split; [apply (one_int w)|]. pose proof vm1. split; [lia|]. apply cong_refl.
Qed.
Lemma rrep_value x a : rrep x a -> is_int x (a mod vm). Proof. intros (v & H & B & C). rewrite <- (cong_small vm v a C B). exact H. Qed.
Theorem ring_simultaneous_spec fuel x v es vs : is_int x v -> Forall2 is_int es vs -> Forall (fun e => 0 <= e <= 2 ^ Z.of_nat fuel) vs ->
  exists rs, ring_simultaneous w (S fuel) ma x es = Some rs /\ Forall2 is_int rs (map (fun e => v ^ e mod vm) vs).
Proof.
  intros Hx He Hv. unfold ring_simultaneous.
  destruct (simultaneous_spec w integer Z rrep rrepb Z.mul 1 Z.opp add dbl neg copy int_one int_zero false Hwb Z_monoid ltac:(discriminate) ring_implements) with (fuel := fuel) (base := x) (a := v) (es := es) (vs := vs) as (rs & E & F); auto.
  - intros. apply radd; auto using rsub.
  - intros. apply rsub, rdbl. auto.
  - discriminate.
  - intros y a (u & H & C). exists u. split; auto. apply (copy_int w). auto.
  - exists v. split; auto. apply cong_refl.
  - exists rs. split; [exact E|]. clear -F Hv. revert rs F. induction Hv; intros rs F; inversion F; subst; constructor; auto. rewrite multiple_pow in H3 by lia. apply rrep_value; auto.
Qed.
Theorem ring_cascade_spec x y e1 e2 vx vy v1 v2 : is_int x vx -> is_int y vy -> 0 <= vx < vm -> 0 <= vy < vm -> is_int e1 v1 -> is_int e2 v2 -> 0 <= v1 -> 0 <= v2 ->
  is_int (ring_cascade w ma x e1 y e2) ((vx ^ v1 * vy ^ v2) mod vm).
Proof.
  intros Hx Hy Bx By H1 H2 L1 L2. apply rrep_value. rewrite <- !multiple_pow by auto. unfold ring_cascade.
  apply (cascade_spec w integer Z rrep Z.mul 1 Z.opp add dbl neg copy int_one int_zero false Hwb Z_monoid ring_implements); auto; [exists vx|exists vy]; (split; [auto|split; [auto|apply cong_refl]]).
Qed.
End Ring.

Section Mont.
Variables (mo : montgomery) (vm : Z).
Hypothesis Hmo : mont_ok w mo vm.
Notation ma := (arith_ mo).
Notation n := (length (reg (mod_ (arith_ mo)))).
Notation R := (P (length (reg (mod_ (arith_ mo))))).
Notation elem := (elem w ma vm).
Hypothesis Hlen : len_ ma = n.
Definition mrep (x : integer) (a : Z) : Prop := exists v, elem x v /\ cong vm v (a * R).
Notation add := (fun a b => or0 (mont_multiply w mo false a b)).
Notation dbl := (fun a => or0 (mont_square w mo a)).
Notation neg := (fun a => or0 (mont_inverse w mo a)).
Lemma finish_len t : words w t -> (length t <= 2 * n)%nat -> wval w t < vm * R -> forall r, mont_finish w mo t = ROk r -> (length (reg r) <= n)%nat.
Proof.
  intros H1 H2 H3 r E. unfold mont_finish in E. destruct (2 * n <? length t)%nat; [discriminate|]. destruct (ModProofs.finish_spec w Hwb mo vm Hmo t H1 H2 H3) as (x & Ex & _ & Lx & _). rewrite Ex in E. injection E as <-.
  cbn [in_result reg]. rewrite firstn_store; rewrite repeat_length; lia.
Qed.
Lemma mmul_elem x y vx vy : elem x vx -> elem y vy -> exists v, elem (add x y) v /\ cong vm (v * R) (vx * vy).
Proof.
  intros Hx Hy. destruct (mont_multiply_int w Hwb mo vm Hmo false x y vx vy Hx Hy ltac:(discriminate)) as (r & vr & E & Hr & Rr & C). cbv beta. rewrite E. exists vr. split; auto. split; auto. split; auto.
  destruct Hx as (Hx & Rx & Lx). destruct Hy as (Hy & Ry & Ly). destruct (asym_ok w Hwb false x y vx vy Hx Hy ltac:(lia) ltac:(lia) ltac:(discriminate)) as (s1 & s2 & s3). eapply finish_len; [exact s1| | |exact E]; [lia|]. rewrite s3. pose proof (vm_R w Hwb mo vm Hmo). nia.
Qed.
Lemma msqr_elem x vx : elem x vx -> exists v, elem (dbl x) v /\ cong vm (v * R) (vx * vx).
Proof.
  intros Hx. destruct (mont_square_int w Hwb mo vm Hmo x vx Hx) as (r & vr & E & Hr & Rr & C). cbv beta. rewrite E. exists vr. split; auto. split; auto. split; auto.
  destruct Hx as (Hx & Rx & Lx). assert (VA : wval w (reg x) = vx) by (apply (nonneg_V w Hwb); auto; lia). destruct Hx as [(A1 & (k & Hk & Lk) & _) _]. destruct (w_squ_spec w k (reg x) Hk A1 Lk) as (s1 & s2 & s3).
  eapply finish_len; [exact s1| | |exact E]; [lia|]. rewrite s3, VA. pose proof (vm_R w Hwb mo vm Hmo). nia.
Qed.
Lemma cancelR x y : cong vm (x * R) (y * R) -> cong vm x y.
Proof. rewrite !(Z.mul_comm _ R). apply cong_cancel. apply (R_coprime w Hwb mo vm Hmo). Qed.
Lemma mont_implements : implements mrep Z.mul 1 Z.opp add dbl neg copy (or0 (mont_identity w mo)) false.
Proof.
  constructor.
  - intros x y a b (vx & Hx & Cx) (vy & Hy & Cy). destruct (mmul_elem x y vx vy Hx Hy) as (v & Hv & Cv). exists v. split; auto. apply cancelR. eapply cong_trans; [exact Cv|]. replace (a * b * R * R) with (a * R * (b * R)) by ring. apply cong_mul; auto.
  - intros x a (vx & Hx & Cx). destruct (msqr_elem x vx Hx) as (v & Hv & Cv). exists v. split; auto. apply cancelR. eapply cong_trans; [exact Cv|]. replace (a * a * R * R) with (a * R * (a * R)) by ring. apply cong_mul; auto.
  - discriminate.
  - intros x a (v & (H & B & L) & C). exists v. split; auto. apply (copy_elem w Hwb ma vm (okA w mo vm Hmo)); auto.
  - destruct (mont_eval_int w Hwb mo vm Hmo EOne 1 (sem_one _ _)) as (r & vr & E & Hr & Cr). cbn [mont_eval] in E. rewrite E. exists vr. auto.
Qed.
Lemma mont_in x v : is_int x v -> mrep (or0 (mont_convert_in w mo x)) v.
Proof. intros H. destruct (mont_eval_int w Hwb mo vm Hmo (EIn x) v (sem_in _ _ x v H)) as (r & vr & E & Hr & Cr). cbn [mont_eval] in E. rewrite E. exists vr. auto. Qed.
Lemma mont_out x a : mrep x a -> is_int (or0 (mont_convert_out w mo x)) (a mod vm).
Proof. intros (v & Hv & Cv). destruct (mont_out_int w Hwb mo vm Hmo x v Hv) as (t & vt & E & Ht & Rt & Ct). rewrite E. cbn [or0]. rewrite <- (cong_small vm vt a); auto. apply cancelR. eapply cong_trans; eauto. Qed.
Theorem mont_simultaneous_spec fuel x a es vs : mrep x a -> Forall2 is_int es vs -> Forall (fun e => 0 <= e <= 2 ^ Z.of_nat fuel) vs ->
  exists rs, mont_simultaneous w (S fuel) mo x es = Some rs /\ Forall2 mrep rs (map (fun e => a ^ e) vs).
Proof.
  intros Hx He Hv. unfold mont_simultaneous.
  pose proof mont_implements as MI.
  destruct (simultaneous_spec w integer Z mrep mrep Z.mul 1 Z.opp add dbl neg copy (or0 (mont_identity w mo)) int_zero false Hwb Z_monoid ltac:(discriminate) MI) with (fuel := fuel) (base := x) (a := a) (es := es) (vs := vs) as (rs & E & F); auto.
  - apply (impl_add _ _ _ _ _ _ _ _ _ _ MI).
  - apply (impl_dbl _ _ _ _ _ _ _ _ _ _ MI).
  - apply (impl_neg _ _ _ _ _ _ _ _ _ _ MI).
  - apply (impl_asg _ _ _ _ _ _ _ _ _ _ MI).
  - exists rs. split; [exact E|]. clear -F Hv. revert rs F. induction Hv; intros rs F; inversion F; subst; constructor; auto. rewrite multiple_pow in H3 by lia. auto.
Qed.
Theorem mont_cascade_spec x y e1 e2 a b v1 v2 : mrep x a -> mrep y b -> is_int e1 v1 -> is_int e2 v2 -> 0 <= v1 -> 0 <= v2 -> mrep (mont_cascade w mo x e1 y e2) (a ^ v1 * b ^ v2).
Proof.
  intros Hx Hy H1 H2 L1 L2. rewrite <- !multiple_pow by auto. unfold mont_cascade.
  apply (cascade_spec w integer Z mrep Z.mul 1 Z.opp add dbl neg copy (or0 (mont_identity w mo)) int_zero false Hwb Z_monoid mont_implements); auto.
Qed.
End Mont.

Lemma mont_of_mod m vm : is_int m vm -> 1 < vm -> vm mod 2 = 1 -> exists mo, make_mont w (mod_ (make_mod m)) = ROk mo /\ mont_ok w mo vm /\ len_ (arith_ mo) = length (reg (mod_ (arith_ mo))).
Proof.
  intros H L O. destruct (make_mont_int w Hwb (mod_ (make_mod m)) vm (copy_int w _ _ H) L) as [(_ & mo & E & Ea & Ok)|[E _]]; [|lia]. exists mo. split; auto. split; auto. rewrite Ea.
  cbn [make_mod mod_ len_]. assert (V1 : valid w m) by apply H. assert (V2 : valid w (copy m)) by (apply (copy_int w m vm H)). rewrite (copy_len w (copy m)) by auto.
  pose proof (copy_len w m V1) as L1. rewrite L1.
  assert (WC : word_count (copy m) = word_count m); [|rewrite WC; auto].
  pose proof (wc_spec w (reg m) (proj1 V1)) as (A1 & A2 & A3 & A4 & A5 & _). pose proof (wc_spec w (reg (copy m)) (proj1 V2)) as (B1 & B2 & B3 & B4 & B5 & _).
  assert (EV : wval w (reg (copy m)) = wval w (reg m)) by (rewrite !(nonneg_V w Hwb _ vm); auto; try lia; apply (copy_int w); auto). rewrite EV in *. fold (word_count m) in *. fold (word_count (copy m)) in *.
  apply Nat.le_antisymm; apply (wc_le w); try apply V1; try apply V2; rewrite ?EV; auto.
Qed.
Theorem simultaneous_exponentiate_spec fuel m x v vm es vs : is_int m vm -> 1 < vm -> is_int x v -> Forall2 is_int es vs -> Forall (fun e => 0 <= e <= 2 ^ Z.of_nat fuel) vs ->
  exists rs, simultaneous_exponentiate w (S fuel) (make_mod m) x es = Some rs /\ Forall2 is_int rs (map (fun e => v ^ e mod vm) vs).
Proof.
  intros Hm Lm Hx He Hv. pose proof (make_ok w Hwb m vm Hm Lm) as Hok. unfold simultaneous_exponentiate. rewrite (odd_V w Hwb _ vm (proj1 Hok)). destruct (Z.odd vm) eqn:Eo.
  - destruct (mont_of_mod m vm Hm Lm ltac:(rewrite Zmod_odd, Eo; auto)) as (mo & E & Hmo & Hl). rewrite E. cbn [or_mont].
    destruct (mont_simultaneous_spec mo vm Hmo Hl fuel _ v es vs (mont_in mo vm Hmo x v Hx) He Hv) as (rs & Er & Fr). rewrite Er. cbn [option_map]. eexists. split; [reflexivity|].
    clear -Fr Hmo Hl Hwb. revert rs Fr. induction vs; intros rs F; inversion F; subst; cbn; constructor; auto. apply (mont_out mo vm Hmo); auto.
  - apply ring_simultaneous_spec; auto.
Qed.
Theorem cascade_exponentiate_spec m x y vm vx vy e1 e2 v1 v2 : is_int m vm -> 1 < vm -> is_int x vx -> is_int y vy -> (vm mod 2 = 0 -> 0 <= vx < vm /\ 0 <= vy < vm) -> is_int e1 v1 -> is_int e2 v2 -> 0 <= v1 -> 0 <= v2 ->
  is_int (cascade_exponentiate w (make_mod m) x e1 y e2) ((vx ^ v1 * vy ^ v2) mod vm).
Proof.
  intros Hm Lm Hx Hy Hr H1 H2 L1 L2. pose proof (make_ok w Hwb m vm Hm Lm) as Hok. unfold cascade_exponentiate. rewrite (odd_V w Hwb _ vm (proj1 Hok)). destruct (Z.odd vm) eqn:Eo.
  - destruct (mont_of_mod m vm Hm Lm ltac:(rewrite Zmod_odd, Eo; auto)) as (mo & E & Hmo & Hl). rewrite E. cbn [or_mont]. apply (mont_out mo vm Hmo). apply (mont_cascade_spec mo vm); auto; apply (mont_in mo vm Hmo); auto.
  - destruct Hr as [Rx Ry]; [rewrite Zmod_odd, Eo; auto|]. apply ring_cascade_spec; auto.
Qed.
Theorem a_exp_spec fuel x e m v ve vm : is_int m vm -> 1 < vm -> is_int x v -> is_int e ve -> 0 <= ve <= 2 ^ Z.of_nat fuel -> exists r, a_exp_b_mod_c w (S fuel) x e m = Some r /\ is_int r (v ^ ve mod vm).
Proof.
  intros Hm Lm Hx He Hv. destruct (simultaneous_exponentiate_spec fuel m x v vm [e] [ve]) as (rs & E & F); auto. cbn in F. inversion F as [|r ? ? ? Hr Ht]; subst. unfold a_exp_b_mod_c, exponentiate. rewrite E. exists r. auto.
Qed.
End Mod.
