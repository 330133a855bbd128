(** Gauss's lemma, quadratic reciprocity and the laws of the Jacobi symbol, over lists of prime factors. *)
From Coq Require Import ZArith Znumtheory List Lia Bool Permutation.
From Verif Require Import NumberTheory.
Import ListNotations.
Local Open Scope Z_scope.

Definition sg (n : Z) : Z := if Z.even n then 1 else -1.
Lemma sg_add a b : sg (a + b) = sg a * sg b.
Proof. unfold sg. rewrite Z.even_add. destruct (Z.even a), (Z.even b); reflexivity. Qed.
Lemma sg_sq a : sg a * sg a = 1.
Proof. unfold sg. destruct (Z.even a); reflexivity. Qed.
Lemma sg_same a b t : a + b = 2 * t -> sg a = sg b.
Proof.
  intros H. assert (E : sg (a + b) = 1) by (rewrite H; unfold sg; now rewrite Z.even_mul).
  rewrite sg_add in E. unfold sg in *. destruct (Z.even a), (Z.even b); auto; discriminate.
Qed.
Lemma zsum_add {A} (f g : A -> Z) l : zsum (map (fun k => f k + g k) l) = zsum (map f l) + zsum (map g l).
Proof. induction l; cbn [map]; rewrite ?zsum_cons, ?IHl; [reflexivity|ring]. Qed.
Lemma zsum_ext {A} (f g : A -> Z) l : (forall x, In x l -> f x = g x) -> zsum (map f l) = zsum (map g l).
Proof. intros H. f_equal. now apply map_ext_in. Qed.
Lemma zsum_even {A} (f : A -> Z) l : (forall x, In x l -> exists t, f x = 2 * t) -> exists t, zsum (map f l) = 2 * t.
Proof.
  induction l as [|x l IH]; intros H; [now exists 0|]. cbn [map]. rewrite zsum_cons. destruct (H x) as [t Ht]; [now left|].
  destruct IH as [u Hu]; [intros; apply H; now right|]. exists (t + u). lia.
Qed.
Lemma zsum_swap {A B} (f : A -> B -> Z) l m : zsum (map (fun x => zsum (map (f x) m)) l) = zsum (map (fun y => zsum (map (fun x => f x y) l)) m).
Proof.
  induction l as [|x l IH]; cbn [map].
  - change (zsum []) with 0. induction m; cbn [map]; rewrite ?zsum_cons, <- ?IHm; reflexivity.
  - rewrite zsum_cons, IH, <- zsum_add. apply zsum_ext. intros. now rewrite zsum_cons.
Qed.
Lemma zsum_const {A} c (l : list A) : zsum (map (fun _ => c) l) = c * Z.of_nat (length l).
Proof. induction l; cbn [map length]; rewrite ?zsum_cons, ?IHl; [change (zsum []) with 0|]; lia. Qed.
Lemma zseq_S n : zseq (S n) = zseq n ++ [Z.of_nat (S n)].
Proof. unfold zseq. rewrite seq_S, map_app. reflexivity. Qed.
Lemma zsum_app l l' : zsum (l ++ l') = zsum l + zsum l'.
Proof. induction l; cbn [app]; rewrite ?zsum_cons, ?IHl; [change (zsum []) with 0|]; lia. Qed.
Lemma count_le n m : 0 <= m <= Z.of_nat n -> zsum (map (fun l => if l <=? m then 1 else 0) (zseq n)) = m.
Proof.
  revert m. induction n as [|n IH]; intros m H; [cbn; lia|]. rewrite zseq_S, map_app, zsum_app. cbn [map]. rewrite zsum_cons. change (zsum []) with 0.
  destruct (Z.leb_spec (Z.of_nat (S n)) m).
  - rewrite (zsum_ext _ (fun l => if l <=? Z.of_nat n then 1 else 0)), IH by lia || (intros x Hx; apply in_zseq in Hx; destruct (Z.leb_spec x m), (Z.leb_spec x (Z.of_nat n)); lia). lia.
  - rewrite IH; lia.
Qed.
Lemma sum_zseq n : 2 * zsum (zseq n) = Z.of_nat n * (Z.of_nat n + 1).
Proof. induction n as [|n IH]; [reflexivity|]. rewrite zseq_S, zsum_app, zsum_cons. change (zsum []) with 0. lia. Qed.

Definition negs (p a k : Z) : Z := if (k * a) mod p <=? Z.of_nat (half p) then 0 else 1.
Definition gsign (p a : Z) : Z := sg (zsum (map (negs p a) (zseq (half p)))).
Definition leg (a p : Z) : Z := if a mod p =? 0 then 0 else gsign p a.
Definition oddprime (p : Z) : Prop := prime p /\ p mod 2 = 1.

Section Gauss.
Variables p a : Z.
Hypothesis Hop : oddprime p.
Hypothesis Ha : ~ (p | a).
Let Hp : prime p := proj1 Hop.
Let Hodd : p mod 2 = 1 := proj2 Hop.
Notation "x == y" := (eqm p x y) (at level 70).
Notation h := (Z.of_nat (half p)).
Definition fold_ (k : Z) : Z := if (k * a) mod p <=? h then (k * a) mod p else p - (k * a) mod p.

Lemma fold_perm : Permutation (map fold_ (zseq (half p))) (zseq (half p)).
Proof.
  pose proof (prime_gt1 p Hp) as P1. pose proof (half_eq p Hp Hodd) as He. apply NoDup_Permutation_bis.
  - apply nodup_map; [apply nodup_zseq|]. intros x y Hx Hy E. apply in_zseq in Hx, Hy.
    assert (D : (p | (x - y) * a) \/ (p | (x + y) * a)).
    { pose proof (Z.div_mod (x * a) p ltac:(lia)) as Ex. pose proof (Z.div_mod (y * a) p ltac:(lia)) as Ey. unfold fold_ in E.
      destruct (Z.leb_spec ((x * a) mod p) h), (Z.leb_spec ((y * a) mod p) h).
      - left. exists ((x * a) / p - (y * a) / p). lia.
      - right. exists ((x * a) / p + (y * a) / p + 1). lia.
      - right. exists ((x * a) / p + (y * a) / p + 1). lia.
      - left. exists ((x * a) / p - (y * a) / p). lia. }
    destruct D as [D|D]; apply (dvd_mult p Hp) in D; destruct D as [D|D]; try contradiction; apply dvd_small in D; lia.
  - now rewrite map_length.
  - intros z Hz. apply in_map_iff in Hz. destruct Hz as (x & <- & Hx). apply in_zseq in Hx. apply in_zseq.
    pose proof (Z.mod_pos_bound (x * a) p ltac:(lia)). assert (N : (x * a) mod p <> 0).
    { intros E. apply Z.mod_divide in E; [|lia]. apply (dvd_mult p Hp) in E. destruct E as [E|E]; [|auto]. apply dvd_small in E; lia. }
    unfold fold_. destruct (Z.leb_spec ((x * a) mod p) h); lia.
Qed.
Lemma fold_prod l : zprod (map fold_ l) == sg (zsum (map (negs p a) l)) * (zprod l * a ^ Z.of_nat (length l)).
Proof.
  induction l as [|x l IH]; [reflexivity|]. cbn [map length]. rewrite !zprod_cons, zsum_cons, sg_add, Nat2Z.inj_succ, Z.pow_succ_r by lia.
  replace (sg (negs p a x) * sg (zsum (map (negs p a) l)) * (x * zprod l * (a * a ^ Z.of_nat (length l))))
    with ((sg (negs p a x) * (x * a)) * (sg (zsum (map (negs p a) l)) * (zprod l * a ^ Z.of_nat (length l)))) by ring.
  apply eqm_mul; [|auto]. unfold fold_, negs, sg. destruct (Z.leb_spec ((x * a) mod p) h); cbn [Z.even].
  - rewrite Z.mul_1_l. apply eqm_mod.
  - replace (-1 * (x * a)) with (0 - x * a) by ring. apply eqm_sub; [unfold eqm; rewrite Z_mod_same_full, Zmod_0_l; reflexivity|apply eqm_mod].
Qed.
Theorem gauss : a ^ h == gsign p a.
Proof.
  pose proof (half_eq p Hp Hodd) as He. pose proof (fold_prod (zseq (half p))) as E. rewrite (zprod_perm _ _ fold_perm), length_zseq in E. fold (gsign p a) in E.
  apply (eqm_cancel p Hp (zprod (zseq (half p)))); [apply (fact_unit p Hp); lia|].
  assert (S1 : gsign p a * gsign p a = 1) by apply sg_sq.
  replace (zprod (zseq (half p)) * a ^ h) with ((gsign p a * gsign p a) * (zprod (zseq (half p)) * a ^ h)) by (rewrite S1; ring).
  rewrite <- Z.mul_assoc, (Z.mul_comm _ (gsign p a)). apply eqm_mul; [reflexivity|]. now apply eqm_sym.
Qed.
Theorem eisenstein : a mod 2 = 1 -> gsign p a = sg (zsum (map (fun k => k * a / p) (zseq (half p)))).
Proof.
  pose proof (prime_gt1 p Hp) as P1. pose proof (half_eq p Hp Hodd) as He. intros Oa.
  destruct (zsum_even (fun k => (fold_ k + k) + (negs p a k + k * a / p)) (zseq (half p))) as [t Ht].
  - intros k Hk. apply in_zseq in Hk. pose proof (Z.div_mod a 2 ltac:(lia)) as E2. rewrite Oa in E2. set (a' := a / 2) in *.
    pose proof (Z.div_mod (k * a) p ltac:(lia)) as E. set (f := k * a / p) in *. unfold fold_, negs. set (r := (k * a) mod p) in *.
    destruct (Z.leb_spec r h).
    + exists (k * (a' + 1) - f * h). assert (p * f = 2 * (h * f) + f) by (rewrite He at 1; ring). assert (k * a = 2 * (k * a') + k) by (rewrite E2; ring). lia.
    + exists (h + 1 - k * a' + f * (h + 1)). assert (p * f = 2 * (h * f) + f) by (rewrite He at 1; ring). assert (k * a = 2 * (k * a') + k) by (rewrite E2; ring). lia.
  - rewrite !zsum_add, map_id, (zsum_perm _ _ fold_perm) in Ht. unfold gsign. apply (sg_same _ _ (t - zsum (zseq (half p)))). lia.
Qed.
End Gauss.
Arguments fold_perm {p a}. Arguments gauss {p a}. Arguments eisenstein {p a}.

Theorem two_sign p : oddprime p -> gsign p 2 = if (p mod 8 =? 3) || (p mod 8 =? 5) then -1 else 1.
Proof.
  intros Hop. pose proof Hop as [Hp Hodd]. pose proof (prime_gt1 p Hp) as P1. pose proof (half_eq p Hp Hodd) as He.
  assert (N2 : ~ (p | 2)). { intros D. apply Z.divide_pos_le in D; [|lia]. assert (p = 2) by lia. subst p. discriminate. }
  assert (E : gsign p 2 = sg (zsum (zseq (half p)))).
  { destruct (zsum_even (fun k => fold_ p 2 k + negs p 2 k) (zseq (half p))) as [t Ht].
    - intros k Hk. apply in_zseq in Hk. unfold fold_, negs. rewrite Z.mod_small by lia. destruct (Z.leb_spec (k * 2) (Z.of_nat (half p))).
      + exists k. lia.
      + exists (Z.of_nat (half p) + 1 - k). lia.
    - rewrite zsum_add, (zsum_perm _ _ (fold_perm Hop N2)) in Ht. apply (sg_same _ _ t). unfold gsign. lia. }
  rewrite E. pose proof (sum_zseq (half p)) as S. set (s := zsum (zseq (half p))) in *. set (n := Z.of_nat (half p)) in *. clearbody s n. clear E Hop Hp Hodd N2.
  pose proof (Z.div_mod n 4 ltac:(lia)) as En. pose proof (Z.mod_pos_bound n 4 ltac:(lia)) as Bn. set (j := n / 4) in *. clearbody j.
  assert (V : n mod 4 = 0 \/ n mod 4 = 1 \/ n mod 4 = 2 \/ n mod 4 = 3) by lia.
  assert (M : p mod 8 = 2 * (n mod 4) + 1). { replace p with (2 * (n mod 4) + 1 + j * 8) by lia. rewrite Z.mod_add by lia. apply Z.mod_small. lia. }
  unfold sg. rewrite M. destruct V as [V|[V|[V|V]]]; rewrite V in *; cbn [Z.eqb Z.mul Z.add orb Pos.mul Pos.add Pos.eqb].
  - assert (s = 2 * (j * (4 * j + 1))) as -> by nia. now rewrite Z.even_mul.
  - assert (s = 1 + 2 * (4 * j * j + 3 * j)) as -> by nia. now rewrite Z.even_add_mul_2.
  - assert (s = 1 + 2 * (4 * j * j + 5 * j + 1)) as -> by nia. now rewrite Z.even_add_mul_2.
  - assert (s = 2 * ((4 * j + 3) * (j + 1))) as -> by nia. now rewrite Z.even_mul.
Qed.

(** Eisenstein's lattice points. *)
Lemma floor_count p q h g k : 0 < p -> 0 < q -> p = 2 * Z.of_nat h + 1 -> q = 2 * Z.of_nat g + 1 -> 1 <= k <= Z.of_nat h -> ~ (p | k * q) ->
  k * q / p = zsum (map (fun l => if l * p <? k * q then 1 else 0) (zseq g)).
Proof.
  intros P0 Q0 Ep Eq Hk N. pose proof (Z.div_mod (k * q) p ltac:(lia)) as E. pose proof (Z.mod_pos_bound (k * q) p P0) as B. set (f := k * q / p) in *.
  assert (Nz : (k * q) mod p <> 0) by (intros Z0; apply N; exists f; lia).
  assert (Bf : 0 <= f <= Z.of_nat g). { split; nia. }
  rewrite <- (count_le g f Bf) at 1. apply zsum_ext. intros l Hl. apply in_zseq in Hl.
  destruct (Z.leb_spec l f), (Z.ltb_spec (l * p) (k * q)); try reflexivity; exfalso; nia.
Qed.
Theorem lattice p q h g : 0 < p -> 0 < q -> p = 2 * Z.of_nat h + 1 -> q = 2 * Z.of_nat g + 1 ->
  (forall k, 1 <= k <= Z.of_nat h -> ~ (p | k * q)) -> (forall l, 1 <= l <= Z.of_nat g -> ~ (q | l * p)) ->
  zsum (map (fun k => k * q / p) (zseq h)) + zsum (map (fun l => l * p / q) (zseq g)) = Z.of_nat h * Z.of_nat g.
Proof.
  intros P0 Q0 Ep Eq Np Nq.
  rewrite (zsum_ext (fun k => k * q / p) (fun k => zsum (map (fun l => if l * p <? k * q then 1 else 0) (zseq g)))).
  2:{ intros k Hk. apply in_zseq in Hk. apply (floor_count p q h g); auto. }
  rewrite (zsum_ext (fun l => l * p / q) (fun l => zsum (map (fun k => if k * q <? l * p then 1 else 0) (zseq h)))).
  2:{ intros l Hl. apply in_zseq in Hl. apply (floor_count q p g h); auto. }
  rewrite (zsum_swap (fun l k => if k * q <? l * p then 1 else 0)), <- zsum_add.
  rewrite (zsum_ext _ (fun _ => Z.of_nat g)).
  - rewrite zsum_const, length_zseq. ring.
  - intros k Hk. apply in_zseq in Hk. rewrite <- zsum_add. rewrite (zsum_ext _ (fun _ => 1)).
    + rewrite zsum_const, length_zseq. ring.
    + intros l Hl. apply in_zseq in Hl. specialize (Np k Hk). assert (l * p <> k * q) by (intros E; apply Np; exists l; lia).
      destruct (Z.ltb_spec (l * p) (k * q)), (Z.ltb_spec (k * q) (l * p)); lia.
Qed.

(** The sign of the reciprocity law. *)
Definition rs (a b : Z) : Z := if (a mod 4 =? 3) && (b mod 4 =? 3) then -1 else 1.
Definition chi8 (b : Z) : Z := if (b mod 8 =? 3) || (b mod 8 =? 5) then -1 else 1.

Lemma mod4_odd n a : a = 2 * n + 1 -> (a mod 4 =? 3) = negb (Z.even n).
Proof.
  intros ->. pose proof (Zmod_even n) as E. pose proof (Z.div_mod n 2 ltac:(lia)) as D. destruct (Z.even n); rewrite E in D.
  - replace (2 * n + 1) with (1 + (n / 2) * 4) by lia. now rewrite Z.mod_add.
  - replace (2 * n + 1) with (3 + (n / 2) * 4) by lia. now rewrite Z.mod_add.
Qed.
Lemma oddprime_pos p : oddprime p -> 2 < p.
Proof. intros [Hp Ho]. pose proof (prime_gt1 p Hp). assert (p <> 2) by (intros ->; discriminate). lia. Qed.
Theorem reciprocity p q : oddprime p -> oddprime q -> leg q p = rs p q * leg p q.
Proof.
  intros Hop Hoq. pose proof Hop as [Hp Op]. pose proof Hoq as [Hq Oq]. pose proof (oddprime_pos p Hop). pose proof (oddprime_pos q Hoq).
  destruct (Z.eq_dec p q) as [->|Npq]; [unfold leg; rewrite Z_mod_same_full; cbn [Z.eqb]; ring|].
  assert (Dpq : ~ (p | q)). { intros D. apply prime_div_prime in D; auto. }
  assert (Dqp : ~ (q | p)). { intros D. apply prime_div_prime in D; auto. }
  unfold leg. destruct (Z.eqb_spec (q mod p) 0) as [E|_]; [apply Z.mod_divide in E; [contradiction|lia]|].
  destruct (Z.eqb_spec (p mod q) 0) as [E|_]; [apply Z.mod_divide in E; [contradiction|lia]|].
  pose proof (half_eq p Hp Op) as Ep. pose proof (half_eq q Hq Oq) as Eq.
  rewrite (eisenstein Hop Dpq Oq), (eisenstein Hoq Dqp Op).
  pose proof (lattice p q (half p) (half q) ltac:(lia) ltac:(lia) Ep Eq) as L. specialize (L).
  assert (L' : zsum (map (fun k => k * q / p) (zseq (half p))) + zsum (map (fun l => l * p / q) (zseq (half q))) = Z.of_nat (half p) * Z.of_nat (half q)).
  { apply L.
    - intros k Hk D. apply (dvd_mult p Hp) in D. destruct D as [D|D]; [apply dvd_small in D; lia|auto].
    - intros k Hk D. apply (dvd_mult q Hq) in D. destruct D as [D|D]; [apply dvd_small in D; lia|auto]. }
  set (x := zsum (map (fun k => k * q / p) (zseq (half p)))) in *. set (y := zsum (map (fun l => l * p / q) (zseq (half q)))) in *. clearbody x y.
  unfold rs. rewrite (mod4_odd _ _ Ep), (mod4_odd _ _ Eq).
  assert (S : (if negb (Z.even (Z.of_nat (half p))) && negb (Z.even (Z.of_nat (half q))) then -1 else 1) = sg (x + y)).
  { rewrite L'. unfold sg. rewrite Z.even_mul. destruct (Z.even (Z.of_nat (half p))), (Z.even (Z.of_nat (half q))); reflexivity. }
  rewrite S, sg_add. transitivity (sg x * (sg y * sg y)); [rewrite sg_sq|]; ring.
Qed.

(** The Legendre symbol and squares. *)
Lemma gsign_pm p a : gsign p a = 1 \/ gsign p a = -1.
Proof. unfold gsign, sg. destruct (Z.even _); auto. Qed.
Lemma leg_euler p a : oddprime p -> eqm p (leg a p) (a ^ Z.of_nat (half p)).
Proof.
  intros Hop. pose proof Hop as [Hp Ho]. pose proof (oddprime_pos p Hop). unfold leg. destruct (Z.eqb_spec (a mod p) 0) as [E|E].
  - eapply eqm_trans; [|apply eqm_pow, (eqm_mod p a)]. rewrite E. rewrite Z.pow_0_l; [reflexivity|]. pose proof (half_eq p Hp Ho). lia.
  - apply eqm_sym, gauss; [auto|]. intros D. apply E. apply Z.mod_divide; [lia|auto].
Qed.
Lemma leg_vals a p : leg a p = 0 \/ leg a p = 1 \/ leg a p = -1.
Proof. unfold leg. destruct (_ =? _); [auto|]. destruct (gsign_pm p a); auto. Qed.
Lemma leg_unique p x y : oddprime p -> (x = 0 \/ x = 1 \/ x = -1) -> (y = 0 \/ y = 1 \/ y = -1) -> eqm p x y -> x = y.
Proof. intros Hop Hx Hy E. pose proof (oddprime_pos p Hop). apply eqm_div in E; [|lia]. apply dvd_small in E; lia. Qed.
Lemma leg_eqm p a b : oddprime p -> eqm p a b -> leg a p = leg b p.
Proof.
  intros Hop E. apply (leg_unique p); auto using leg_vals. eapply eqm_trans; [now apply leg_euler|].
  eapply eqm_trans; [apply eqm_pow, E|]. now apply eqm_sym, leg_euler.
Qed.
Lemma leg_mul p a b : oddprime p -> leg (a * b) p = leg a p * leg b p.
Proof.
  intros Hop. apply (leg_unique p); auto using leg_vals.
  - destruct (leg_vals a p) as [E|[E|E]], (leg_vals b p) as [F|[F|F]]; rewrite E, F; auto.
  - eapply eqm_trans; [now apply leg_euler|]. rewrite Z.pow_mul_l. apply eqm_sym. apply eqm_mul; now apply leg_euler.
Qed.
Lemma leg_one p : oddprime p -> leg 1 p = 1.
Proof.
  intros Hop. apply (leg_unique p); auto using leg_vals. eapply eqm_trans; [now apply leg_euler|]. rewrite Z.pow_1_l by lia. reflexivity.
Qed.
Lemma leg_two p : oddprime p -> leg 2 p = chi8 p.
Proof.
  intros Hop. pose proof (oddprime_pos p Hop). unfold leg. rewrite Z.mod_small by lia. cbn [Z.eqb]. now apply two_sign.
Qed.
Theorem leg_residue p a : oddprime p -> a mod p <> 0 -> (exists x, eqm p (x * x) a) <-> leg a p = 1.
Proof.
  intros Hop Ha. pose proof Hop as [Hp Ho]. pose proof (oddprime_pos p Hop).
  rewrite (euler p Hp Ho) by (intros D; apply Ha, Z.mod_divide; [lia|auto]). split; intros E.
  - apply (leg_unique p); auto using leg_vals. eapply eqm_trans; [now apply leg_euler|auto].
  - rewrite <- E. now apply eqm_sym, leg_euler.
Qed.

(** The Jacobi symbol of a list of primes. *)
Definition jac (a : Z) (ps : list Z) : Z := zprod (map (leg a) ps).
Lemma jac_cons a p ps : jac a (p :: ps) = leg a p * jac a ps. Proof. reflexivity. Qed.
Lemma jac_mul a b ps : Forall oddprime ps -> jac (a * b) ps = jac a ps * jac b ps.
Proof. induction 1; [reflexivity|]. rewrite !jac_cons, leg_mul, IHForall by auto. ring. Qed.
Lemma jac_one ps : Forall oddprime ps -> jac 1 ps = 1.
Proof. induction 1; [reflexivity|]. rewrite jac_cons, leg_one, IHForall by auto. ring. Qed.
Lemma jac_vals a ps : jac a ps = 0 \/ jac a ps = 1 \/ jac a ps = -1.
Proof. induction ps as [|p ps IH]; [right; left; reflexivity|]. rewrite jac_cons. destruct (leg_vals a p) as [E|[E|E]], IH as [F|[F|F]]; rewrite E, F; auto. Qed.
Lemma jac_eqm a b ps n : Forall oddprime ps -> (forall p, In p ps -> (p | n)) -> eqm n a b -> jac a ps = jac b ps.
Proof.
  intros F D E. induction F as [|p ps Hp F IH]; [reflexivity|]. rewrite !jac_cons. f_equal; [|apply IH; intros; apply D; now right].
  apply leg_eqm; [auto|]. apply (eqm_dvd p n); [pose proof (oddprime_pos p Hp); lia|apply D; now left|auto].
Qed.
Lemma zprod_dvd p ps : In p ps -> (p | zprod ps).
Proof.
  induction ps as [|q ps IH]; intros H; [destruct H|]. rewrite zprod_cons. destruct H as [->|H]; [apply Z.divide_factor_l|]. apply Z.divide_mul_r. auto.
Qed.
Lemma jac_mod a ps : Forall oddprime ps -> jac (a mod zprod ps) ps = jac a ps.
Proof. intros F. apply (jac_eqm _ _ ps (zprod ps)); auto using zprod_dvd. apply eqm_mod. Qed.
Lemma oddprod ps : Forall oddprime ps -> 0 < zprod ps /\ zprod ps mod 2 = 1.
Proof.
  induction 1 as [|p ps Hp F IH]; [split; reflexivity|]. rewrite zprod_cons. pose proof (oddprime_pos p Hp). destruct IH as [I1 I2]. split; [nia|].
  rewrite Zmult_mod, I2. destruct Hp as [_ ->]. reflexivity.
Qed.
Lemma jac_zero ps : Forall oddprime ps -> zprod ps <> 1 -> jac 0 ps = 0.
Proof. destruct 1 as [|p ps Hp F]; intros H; [now destruct H|]. rewrite jac_cons. unfold leg. rewrite Zmod_0_l. reflexivity. Qed.
Lemma prod_one ps : Forall oddprime ps -> zprod ps = 1 -> ps = [].
Proof. destruct 1 as [|p ps Hp F]; intros H; [reflexivity|]. rewrite zprod_cons in H. pose proof (oddprime_pos p Hp). pose proof (oddprod ps F). nia. Qed.

Lemma odd_mod8 a : a mod 2 = 1 -> a mod 8 = 1 \/ a mod 8 = 3 \/ a mod 8 = 5 \/ a mod 8 = 7.
Proof. intros H. pose proof (Z.mod_pos_bound a 8 ltac:(lia)). pose proof (Z.div_mod a 8 ltac:(lia)). pose proof (Z.div_mod a 2 ltac:(lia)). lia. Qed.
Lemma odd_mod4 a : a mod 2 = 1 -> a mod 4 = 1 \/ a mod 4 = 3.
Proof. intros H. pose proof (Z.mod_pos_bound a 4 ltac:(lia)). pose proof (Z.div_mod a 4 ltac:(lia)). pose proof (Z.div_mod a 2 ltac:(lia)). lia. Qed.
Lemma chi8_mul a b : a mod 2 = 1 -> b mod 2 = 1 -> chi8 (a * b) = chi8 a * chi8 b.
Proof.
  intros Ha Hb. unfold chi8. rewrite Zmult_mod. destruct (odd_mod8 a Ha) as [E|[E|[E|E]]], (odd_mod8 b Hb) as [F|[F|[F|F]]]; rewrite E, F; reflexivity.
Qed.
Lemma rs_mul a b c : a mod 2 = 1 -> b mod 2 = 1 -> rs (a * b) c = rs a c * rs b c.
Proof.
  intros Ha Hb. unfold rs. rewrite Zmult_mod. destruct (odd_mod4 a Ha) as [E|E], (odd_mod4 b Hb) as [F|F]; rewrite E, F; destruct (c mod 4 =? 3); reflexivity.
Qed.
Lemma rs_sym a b : rs a b = rs b a.
Proof. unfold rs. now rewrite andb_comm. Qed.
Lemma jac_two ps : Forall oddprime ps -> jac 2 ps = chi8 (zprod ps).
Proof.
  induction 1 as [|p ps Hp F IH]; [reflexivity|]. rewrite jac_cons, zprod_cons, leg_two, IH, chi8_mul; auto; [apply Hp|now apply oddprod].
Qed.
Lemma jac_one_list q ps : oddprime q -> Forall oddprime ps -> jac q ps = rs (zprod ps) q * leg (zprod ps) q.
Proof.
  intros Hq. induction 1 as [|p ps Hp F IH].
  - change (zprod []) with 1. rewrite leg_one by auto. unfold rs. reflexivity.
  - rewrite jac_cons, zprod_cons, leg_mul, rs_mul, IH, (reciprocity p q); auto; [ring|apply Hp|now apply oddprod].
Qed.
Theorem jac_reciprocity ps qs : Forall oddprime ps -> Forall oddprime qs -> jac (zprod qs) ps = rs (zprod qs) (zprod ps) * jac (zprod ps) qs.
Proof.
  intros Fp. induction 1 as [|q qs Hq F IH].
  - change (zprod []) with 1. rewrite jac_one by auto. reflexivity.
  - rewrite jac_cons, zprod_cons, jac_mul, rs_mul, IH, (jac_one_list q ps), (rs_sym _ q); auto; [ring|apply Hq|now apply oddprod].
Qed.
Theorem odd_factors n : 0 < n -> n mod 2 = 1 -> exists ps, Forall oddprime ps /\ zprod ps = n.
Proof.
  intros Hn. assert (H0 : 0 <= n) by lia. revert n H0 Hn. refine (Zlt_0_ind _ _). intros n IH _ Hn Ho.
  destruct (Z.eq_dec n 1) as [->|N1]; [exists []; split; [constructor|reflexivity]|].
  destruct (prime_dec n) as [Pn|Np].
  - exists [n]. split; [constructor; [split; auto|constructor]|]. rewrite zprod_cons. change (zprod []) with 1. ring.
  - destruct (not_prime_divide n ltac:(lia) Np) as (d & Hd & [k E]).
    assert (Hk : 1 < k < n) by nia.
    assert (Od : d mod 2 = 1 /\ k mod 2 = 1).
    { rewrite E, Zmult_mod in Ho. pose proof (Z.mod_pos_bound d 2 ltac:(lia)). pose proof (Z.mod_pos_bound k 2 ltac:(lia)).
      assert (V : d mod 2 = 0 \/ d mod 2 = 1) by lia. assert (W : k mod 2 = 0 \/ k mod 2 = 1) by lia. destruct V as [V|V], W as [W|W]; rewrite V, W in Ho; try discriminate Ho. auto. }
    destruct (IH d ltac:(lia) ltac:(lia) (proj1 Od)) as (ps & Fp & Ep). destruct (IH k ltac:(lia) ltac:(lia) (proj2 Od)) as (qs & Fq & Eq).
    exists (qs ++ ps). split; [now apply Forall_app|]. rewrite zprod_app. lia.
Qed.
