(** C41: scalar multiplication and exponentiation. *)
From Coq Require Import ZArith List Bool Arith Lia Permutation.
From Verif Require Import Base WordsSpec WordsModel IntegerModel IntegerSpec IntegerProofs ModSpec ModModel ModProofs AlgebraModel AlgebraSpec AlgebraProofs AlgebraModProofs IntegerProperties.
Import ListNotations.
Local Open Scope Z_scope.

(** For every class whose operations compute in a commutative monoid, and in a group if it says that inversion is fast. [fuel] bounds the number of
    bit positions; every exponent is below 2^fuel for some fuel. *)
Theorem C41_simultaneous : forall w (T A : Type) (rep : T -> A -> Prop) op e opp add dbl neg asg zero dflt (fast : bool) fuel base a es vs,
  word_bits w -> monoid op e -> (fast = true -> inverses op e opp) -> implements rep op e opp add dbl neg asg zero fast ->
  rep base a -> Forall2 (is_int w) es vs -> Forall (fun v => 0 <= v < 2 ^ Z.of_nat fuel) vs ->
  exists rs, simultaneous w T add dbl neg asg zero dflt fast (S fuel) base es = Some rs /\ Forall2 rep rs (map (fun v => multiple op e v a) vs).
Proof.
  intros w T A rep op e opp add dbl neg asg zero dflt fast fuel base a es vs Hw Hm Hi I Hb He Hv.
  apply (simultaneous_spec w T A rep rep op e opp add dbl neg asg zero dflt fast Hw Hm Hi I); auto.
  - apply (impl_add _ _ _ _ _ _ _ _ _ _ I).
  - apply (impl_dbl _ _ _ _ _ _ _ _ _ _ I).
  - apply (impl_neg _ _ _ _ _ _ _ _ _ _ I).
  - apply (impl_asg _ _ _ _ _ _ _ _ _ _ I).
  - eapply Forall_impl; [|exact Hv]. cbv beta. intros. lia.
Qed.
Theorem C41_scalar_multiply : forall w (T A : Type) (rep : T -> A -> Prop) op e opp add dbl neg asg zero dflt (fast : bool) fuel base a x v,
  word_bits w -> monoid op e -> (fast = true -> inverses op e opp) -> implements rep op e opp add dbl neg asg zero fast ->
  rep base a -> is_int w x v -> 0 <= v < 2 ^ Z.of_nat fuel ->
  exists r, scalar_multiply w T add dbl neg asg zero dflt fast (S fuel) base x = Some r /\ rep r (multiple op e v a).
Proof.
  intros w T A rep op e opp add dbl neg asg zero dflt fast fuel base a x v Hw Hm Hi I Hb He Hv.
  destruct (C41_simultaneous w T A rep op e opp add dbl neg asg zero dflt fast fuel base a [x] [v] Hw Hm Hi I Hb) as (rs & E & F); auto.
  unfold scalar_multiply. rewrite E. inversion F as [|r ? ? ? Hr _]; subst. exists r. auto.
Qed.
Theorem C41_cascade : forall w (T A : Type) (rep : T -> A -> Prop) op e opp add dbl neg asg zero dflt (fast : bool) x y a b e1 e2 v1 v2,
  word_bits w -> monoid op e -> implements rep op e opp add dbl neg asg zero fast ->
  rep x a -> rep y b -> is_int w e1 v1 -> is_int w e2 v2 -> 0 <= v1 -> 0 <= v2 ->
  rep (cascade w T add dbl asg zero dflt x e1 y e2) (op (multiple op e v1 a) (multiple op e v2 b)).
Proof.
  intros w T A rep op e opp add dbl neg asg zero dflt fast x y a b e1 e2 v1 v2 Hw Hm I Hx Hy H1 H2 L1 L2.
  apply (cascade_spec w T A rep op e opp add dbl neg asg zero dflt fast Hw Hm I); auto.
Qed.
(** Any number of pairs, one at least; [heap] is any function with the effect of the heap algorithms of the standard library. *)
Theorem C41_general_cascade : forall w (T A : Type) (rep : T -> A -> Prop) op e opp add dbl neg asg zero dflt (fast : bool) heap f2 fuel l q,
  word_bits w -> monoid op e -> (fast = true -> inverses op e opp) -> implements rep op e opp add dbl neg asg zero fast -> heaps w heap ->
  l <> [] -> Forall2 (fun p q => rep (fst p) (fst q) /\ is_int w (snd p) (snd q) /\ 0 <= snd q < 2 ^ Z.of_nat f2) l q -> fold_right Z.add 0 (map snd q) < Z.of_nat fuel ->
  exists r, general w T add dbl neg asg zero dflt fast heap fuel (S f2) l = Some r /\ rep r (combination op e q).
Proof.
  intros w T A rep op e opp add dbl neg asg zero dflt fast heap f2 fuel l q Hw Hm Hi I Hh N F Hf.
  apply (general_spec w T A rep rep op e opp add dbl neg asg zero dflt fast Hw Hm Hi I); auto.
  - apply (impl_add _ _ _ _ _ _ _ _ _ _ I).
  - apply (impl_dbl _ _ _ _ _ _ _ _ _ _ I).
  - apply (impl_neg _ _ _ _ _ _ _ _ _ _ I).
  - apply (impl_asg _ _ _ _ _ _ _ _ _ _ I).
  - clear Hf N. induction F; constructor; auto. destruct H as (A1 & A2 & A3). split; auto. split; auto. lia.
  - clear Hf N. induction F; constructor; auto. destruct H as (A1 & A2 & A3). lia.
Qed.

(** Modulo an integer: ModularArithmetic. *)
Theorem C41_simultaneous_exponentiate : forall w fuel m x vm v es vs, word_bits w -> is_int w m vm -> 1 < vm -> is_int w x v ->
  Forall2 (is_int w) es vs -> Forall (fun e => 0 <= e < 2 ^ Z.of_nat fuel) vs ->
  exists rs, simultaneous_exponentiate w (S fuel) (make_mod m) x es = Some rs /\ Forall2 (is_int w) rs (map (fun e => v ^ e mod vm) vs).
Proof.
  intros w fuel m x vm v es vs Hw Hm Lm Hx He Hv. apply (simultaneous_exponentiate_spec w Hw); auto. eapply Forall_impl; [|exact Hv]. cbv beta. intros. lia.
Qed.
Theorem C41_a_exp_b_mod_c : forall w fuel x e m v ve vm, word_bits w -> is_int w m vm -> 1 < vm -> is_int w x v -> is_int w e ve -> 0 <= ve < 2 ^ Z.of_nat fuel ->
  exists r, a_exp_b_mod_c w (S fuel) x e m = Some r /\ is_int w r (v ^ ve mod vm).
Proof. intros w fuel x e m v ve vm Hw Hm Lm Hx He Hv. apply (a_exp_spec w Hw); auto. lia. Qed.
Theorem C41_cascade_exponentiate : forall w m x y vm vx vy e1 e2 v1 v2, word_bits w -> is_int w m vm -> 1 < vm -> is_int w x vx -> is_int w y vy ->
  (vm mod 2 = 0 -> 0 <= vx < vm /\ 0 <= vy < vm) -> is_int w e1 v1 -> is_int w e2 v2 -> 0 <= v1 -> 0 <= v2 ->
  is_int w (cascade_exponentiate w (make_mod m) x e1 y e2) ((vx ^ v1 * vy ^ v2) mod vm).
Proof. intros w m x y vm vx vy e1 e2 v1 v2 Hw Hm Lm Hx Hy Hr H1 H2 L1 L2. apply (cascade_exponentiate_spec w Hw); auto. Qed.
(** A base outside the range comes back as it is when the modulus is even. *)
Theorem C41_unreduced_base_refuted : cascade_exponentiate 64 (make_mod (small 8)) (small 13) (small 1) (small 5) (small 0) = small 13 /\ (13 ^ 1 * 5 ^ 0) mod 8 = 5.
Proof. split; vm_compute; reflexivity. Qed.
(** MontgomeryRepresentation, whose register is that of the modulus object: elements converted in, the results converted out. *)
Theorem C41_montgomery : forall w fuel m x vm v es vs, word_bits w -> is_int w m vm -> 1 < vm -> vm mod 2 = 1 -> length (reg m) = length (reg (copy m)) -> is_int w x v ->
  Forall2 (is_int w) es vs -> Forall (fun e => 0 <= e < 2 ^ Z.of_nat fuel) vs ->
  exists mo b rs, make_mont w m = ROk mo /\ mont_convert_in w mo x = ROk b /\ mont_simultaneous w (S fuel) mo b es = Some rs /\
    Forall2 (fun r v => exists r', mont_convert_out w mo r = ROk r' /\ is_int w r' v) rs (map (fun e => v ^ e mod vm) vs).
Proof.
  intros w fuel m x vm v es vs Hw Hm Lm Om Ln Hx He Hv. pose proof (word_bits_big w Hw) as Hb.
  destruct (make_mont_int w Hw m vm Hm Lm) as [(_ & mo & E & Ea & Ok)|[Q _]]; [|lia]. exists mo.
  destruct (mont_eval_int w Hw mo vm Ok (EIn x) v (sem_in _ _ x v Hx)) as (b & vb & Eb & Hb1 & Cb). cbn [mont_eval] in Eb. exists b.
  assert (Hl : len_ (arith_ mo) = length (reg (mod_ (arith_ mo)))) by (rewrite Ea; exact Ln).
  destruct (mont_simultaneous_spec w Hw mo vm Ok Hl fuel b v es vs) as (rs & Er & Fr); auto.
  - exists vb. auto.
  - eapply Forall_impl; [|exact Hv]. cbv beta. intros. lia.
  - exists rs. split; auto. split; auto. split; auto. clear -Fr Ok Hw. revert rs Fr. induction vs as [|e vs I]; intros rs F; inversion F as [|r ? rs' ? Hr Ht]; subst; cbn [map]; constructor; auto.
    destruct Hr as (u & Hu & Cu). destruct (mont_out_int w Hw mo vm Ok r u Hu) as (r' & vr & E & Hr & Br & Cr). exists r'. split; auto. rewrite <- (cong_small vm vr (v ^ e)); auto. apply (cancelR w Hw mo vm Ok). eapply cong_trans; eauto.
Qed.

(** The integers modulo 101 under addition, with and without fast inversion. *)
Definition add101 (x y : Z) : Z := (x + y) mod 101.
Lemma add101_implements fast : implements (fun x a => x = a mod 101) Z.add 0 Z.opp add101 (fun x => add101 x x) (fun x => (- x) mod 101) (fun x => x) 0 fast.
Proof.
  constructor.
  - intros x y a b -> ->. unfold add101. rewrite <- Z.add_mod by lia. auto.
  - intros x a ->. unfold add101. rewrite <- Z.add_mod by lia. auto.
  - intros _ x a ->. rewrite <- (Z.sub_0_l (a mod 101)), Zminus_mod_idemp_r. auto.
  - auto.
  - reflexivity.
Qed.
Lemma Zplus_monoid : monoid Z.add 0 /\ inverses Z.add 0 Z.opp.
Proof. split; [split; [intros; apply Z.add_assoc|split; [intros; apply Z.add_comm|intros; apply Z.add_0_l]]|]. intros a. apply Z.add_opp_diag_r. Qed.
Definition big : integer := mkInt false [12345678901234567890; 9876543210987654321].
Example C41_simultaneous_example : is_int 64 big (9876543210987654321 * 2 ^ 64 + 12345678901234567890) /\
  simultaneous 64 Z add101 (fun x => add101 x x) (fun x => (- x) mod 101) (fun x => x) 0 0 true 129 7 [big; small 1000003; small 0] = Some [((9876543210987654321 * 2 ^ 64 + 12345678901234567890) * 7) mod 101; (1000003 * 7) mod 101; 0] /\
  simultaneous 64 Z add101 (fun x => add101 x x) (fun x => (- x) mod 101) (fun x => x) 0 0 false 129 7 [big; small 1000003; small 0] = Some [((9876543210987654321 * 2 ^ 64 + 12345678901234567890) * 7) mod 101; (1000003 * 7) mod 101; 0].
Proof. split; [lit 1%nat|]. split; vm_compute; reflexivity. Qed.
Example C41_cascade_example : cascade 64 Z add101 (fun x => add101 x x) (fun x => x) 0 0 7 big 9 (small 1000003) = ((9876543210987654321 * 2 ^ 64 + 12345678901234567890) * 7 + 1000003 * 9) mod 101.
Proof. vm_compute. reflexivity. Qed.
(** A function that meets [heaps]: sort by exponent, largest first, and move the first to the end. *)
Section Sorted.
Context {T : Type} (w : Z).
Notation key p := (ival w (snd p)).
Fixpoint insert (p : T * integer) (l : list (T * integer)) : list (T * integer) :=
  match l with [] => [p] | q :: t => if key q <=? key p then p :: l else q :: insert p t end.
Fixpoint sorted (l : list (T * integer)) : list (T * integer) := match l with [] => [] | p :: t => insert p (sorted t) end.
Definition rotated (l : list (T * integer)) : list (T * integer) := match sorted l with [] => [] | p :: t => t ++ [p] end.
Fixpoint desc (l : list (T * integer)) : Prop := match l with [] => True | p :: t => Forall (fun q => key q <= key p) t /\ desc t end.
Lemma insert_perm p l : Permutation (insert p l) (p :: l).
Proof. induction l as [|q t I]; cbn [insert]; auto. destruct (key q <=? key p); auto. rewrite I. apply perm_swap. Qed.
Lemma insert_desc p l : desc l -> desc (insert p l).
Proof.
  induction l as [|q t I]; cbn [insert desc]; intros H; [auto|]. destruct H as [H1 H2]. destruct (Z.leb_spec (key q) (key p)); cbn [desc].
  - split; [|auto]. constructor; auto. eapply Forall_impl; [|exact H1]. cbv beta. intros. lia.
  - split; [|auto]. eapply Permutation_Forall; [apply Permutation_sym, insert_perm|]. constructor; auto. lia.
Qed.
Lemma sorted_ok l : Permutation (sorted l) l /\ desc (sorted l).
Proof. induction l as [|p l [I1 I2]]; cbn [sorted desc]; auto. split; [rewrite insert_perm; auto|apply insert_desc; auto]. Qed.
Lemma rotated_heaps : heaps w rotated.
Proof.
  intros l. unfold rotated. destruct (sorted_ok l) as [P D]. destruct (sorted l) as [|p t]; [split; [auto|split]; intros; match goal with E : [] = _ |- _ => symmetry in E; destruct front || idtac; try discriminate end; apply app_cons_not_nil in H || (destruct mid; discriminate); contradiction|].
  destruct D as [D1 D2]. split; [rewrite <- P; apply Permutation_sym, Permutation_cons_append|]. split.
  - intros front z E. apply app_inj_tail in E. destruct E as [-> ->]. auto.
  - intros b mid z E. change (b :: mid ++ [z]) with ((b :: mid) ++ [z]) in E. apply app_inj_tail in E. destruct E as [-> ->]. apply D2.
Qed.
End Sorted.
Example C41_general_example : heaps 64 (@rotated Z 64) /\
  general 64 Z add101 (fun x => add101 x x) (fun x => (- x) mod 101) (fun x => x) 0 0 true (rotated 64) 1000 129 [(7, small 300); (9, small 1000003); (12, small 17); (50, big)]
  = Some ((300 * 7 + 1000003 * 9 + 17 * 12 + (9876543210987654321 * 2 ^ 64 + 12345678901234567890) * 50) mod 101).
Proof. split; [apply rotated_heaps|]. vm_compute. reflexivity. Qed.
Example C41_exponentiate_example : let e := small 577 in
  a_exp_b_mod_c 64 11 (small 123456789) e (small 1000000007) = Some (small 168625588) /\ 123456789 ^ 577 mod 1000000007 = 168625588 /\
  a_exp_b_mod_c 64 11 (small 123456789) e (small 1000000006) = Some (small 26158767) /\ 123456789 ^ 577 mod 1000000006 = 26158767 /\
  cascade_exponentiate 64 (make_mod (small 1000000007)) (small 5) e (small 6) (small 77) = small 39975477 /\ (5 ^ 577 * 6 ^ 77) mod 1000000007 = 39975477.
Proof. cbv zeta. do 5 (split; [vm_compute; reflexivity|]). vm_compute. reflexivity. Qed.

Print Assumptions C41_simultaneous.
Print Assumptions C41_scalar_multiply.
Print Assumptions C41_cascade.
Print Assumptions C41_general_cascade.
Print Assumptions C41_simultaneous_exponentiate.
Print Assumptions C41_a_exp_b_mod_c.
Print Assumptions C41_cascade_exponentiate.
Print Assumptions C41_unreduced_base_refuted.
Print Assumptions C41_montgomery.
