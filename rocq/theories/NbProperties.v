(** Properties of the number-theoretic functions (C43, C44, C74-C76, C78, C79), stated for Integer objects of either word size. [fuel] bounds the rounds of
    the loops; the theorems show that they end. *)
From Coq Require Import ZArith Znumtheory List Bool Arith Lia.
From Verif Require Import Base WordsModel WordsSpec WordsProofs IntegerModel IntegerSpec IntegerProofs IntegerCodecProofs IntegerProperties
  NumberTheory Reciprocity NbModel NbSpec NbProofs NbRootProofs NbRandomProofs NbTestProofs.
Import ListNotations.
Local Open Scope Z_scope.

(** A test for the primes in the examples. *)
Definition primeb (n : Z) : bool := (1 <? n) && forallb (fun k => Z.gcd k n =? 1) (zseq (Z.to_nat (n - 1))).
Lemma primeb_prime n : primeb n = true -> prime n.
Proof.
  unfold primeb. rewrite andb_true_iff, Z.ltb_lt, forallb_forall. intros [H F]. apply prime_intro; auto. intros k K. apply Zgcd_1_rel_prime. apply Z.eqb_eq, F, in_zseq. lia.
Qed.
Ltac small_prime := apply primeb_prime; vm_compute; reflexivity.

(* ------------------------------------------------------------------------- C43 *)
Theorem C43_crt : forall w xp p xq q u vxp vp vxq vq vu, word_bits w -> is_int w xp vxp -> is_int w p vp -> is_int w xq vxq -> is_int w q vq -> is_int w u vu ->
  1 < vp -> 1 < vq -> (vu * vp) mod vq = 1 -> 0 <= vxp < vp ->
  exists r v, crt w xp p xq q u = ROk r /\ is_int w r v /\ 0 <= v < vp * vq /\ forall x, 0 <= x < vp * vq -> (x mod vp = vxp mod vp /\ x mod vq = vxq mod vq <-> x = v).
Proof.
  intros w xp p xq q u vxp vp vxq vq vu Hw Hxp Hp Hxq Hq Hu P Q U R. destruct (crt_int w Hw xp p xq q u vxp vp vxq vq vu) as (r & v & E & Hr & E1 & E2 & R'); auto; try lia. { rewrite U, Z.mod_small; lia. }
  specialize (R' R). exists r, v. split; auto. split; auto. split; auto. intros x Rx. split; [|intros ->; auto]. intros [X1 X2]. apply (eqm_small (vp * vq)); auto. apply eqm_product; try lia.
  - apply (unit_coprime vp vq vu); auto.
  - unfold eqm in *. congruence.
  - unfold eqm in *. congruence.
Qed.
Theorem C43_modular_root : forall w fuel a dp dq p q u va vdp vdq vp vq vu ve, word_bits w -> is_int w a va -> is_int w dp vdp -> is_int w dq vdq -> is_int w p vp -> is_int w q vq -> is_int w u vu ->
  prime vp -> prime vq -> vp <> vq -> 0 < vdp -> 0 < vdq -> 0 < ve -> (ve * vdp) mod (vp - 1) = 1 mod (vp - 1) -> (ve * vdq) mod (vq - 1) = 1 mod (vq - 1) -> (vu * vp) mod vq = 1 ->
  vdp < 2 ^ (Z.of_nat fuel - 1) -> vdq < 2 ^ (Z.of_nat fuel - 1) ->
  exists r v, modular_root w fuel a dp dq p q u = ROk r /\ is_int w r v /\ 0 <= v < vp * vq /\ v ^ ve mod (vp * vq) = va mod (vp * vq).
Proof. intros w fuel a dp dq p q u va vdp vdq vp vq vu ve Hw; intros. destruct (modular_root_int w Hw fuel a dp dq p q u va vdp vdq vp vq vu ve) as (r & v & E & Hr & R & V & _); auto. exists r, v. auto. Qed.
Theorem C43_modular_root_of : forall w fuel a e p q va ve vp vq, word_bits w -> is_int w a va -> is_int w e ve -> is_int w p vp -> is_int w q vq ->
  prime vp -> prime vq -> vp <> vq -> 2 < vp -> 2 < vq -> 0 < ve -> Z.gcd ve (vp - 1) = 1 -> Z.gcd ve (vq - 1) = 1 ->
  (length (reg e) <= 2 * length (reg (minus w p int_one)))%nat -> (length (reg e) <= 2 * length (reg (minus w q int_one)))%nat -> (length (reg p) <= 2 * length (reg q))%nat ->
  vp < 2 ^ (Z.of_nat fuel - 1) -> vq < 2 ^ (Z.of_nat fuel - 1) ->
  exists r v, modular_root_of w fuel a e p q = ROk r /\ is_int w r v /\ 0 <= v < vp * vq /\ v ^ ve mod (vp * vq) = va mod (vp * vq).
Proof. intros w fuel a e p q va ve vp vq Hw. apply modular_root_of_int; auto. Qed.
Example C43_example : (5 * 101) mod 63 = 1 /\ is_int 64 (small 101) 101 /\ crt 64 (small 77) (small 101) (small 40) (small 63) (small 5) = ROk (mkInt false [481; 0; 0; 0]) /\ 481 mod 101 = 77 /\ 481 mod 63 = 40.
Proof. split; [reflexivity|]. split; [lit 1%nat|]. split; [vm_compute; reflexivity|]. split; reflexivity. Qed.
Example C43_root_example : prime 101 /\ prime 71 /\ (3 * 67) mod 100 = 1 /\ (3 * 47) mod 70 = 1 /\ (45 * 101) mod 71 = 1 /\
  modular_root 64 12 (small 77) (small 67) (small 47) (small 101) (small 71) (small 45) = ROk (mkInt false [3631; 0; 0; 0]) /\ 3631 ^ 3 mod (101 * 71) = 77 /\
  modular_root_of 64 12 (small 77) (small 3) (small 101) (small 71) = ROk (mkInt false [3631; 0; 0; 0]).
Proof. split; [small_prime|]. split; [small_prime|]. do 5 (split; [vm_compute; reflexivity|]). vm_compute. reflexivity. Qed.

(* ------------------------------------------------------------------------- C44 *)
Theorem C44_jacobi : forall w fuel a b va vb, word_bits w -> is_int w a va -> is_int w b vb -> 0 < vb -> vb mod 2 = 1 -> vb < Z.of_nat fuel ->
  exists s, jacobi w fuel a b = ROk s /\ forall s', jacobi_symbol va vb s' <-> s' = s.
Proof. intros w fuel a b va vb Hw. apply jacobi_symbol_int; auto. Qed.
Example C44_example : jacobi 64 2000 (small 1001) (small 9907) = ROk (-1) /\ jacobi 64 2000 (mkInt true [30; 0]) (small 45) = ROk 0 /\ jacobi 64 2000 (small 2) (small 15) = ROk 1.
Proof. do 2 (split; [vm_compute; reflexivity|]). vm_compute. reflexivity. Qed.

(* ------------------------------------------------------------------------- C74 *)
(** A prime passes the tests with every base. *)
Theorem C74_prime_passes : forall w fuel n b vn vb, word_bits w -> is_int w n vn -> is_int w b vb -> prime vn -> 1 < vb < vn - 1 \/ vn <= 3 -> vn <= Z.of_nat fuel ->
  is_fermat_probable_prime w fuel n b = ROk true /\ is_strong_probable_prime w fuel n b = ROk true.
Proof. intros w fuel n b vn vb Hw; intros. split; [eapply (fermat_test w Hw)|eapply (strong_test w Hw)]; eauto. Qed.
(** The Rabin-Miller test never calls a prime composite, whatever the random number generator returns and as long as it returns. *)
Theorem C74_rabin_miller : forall w fuel rounds n vn k blocks, word_bits w -> is_int w n vn -> prime vn -> vn <= Z.of_nat fuel -> blocks_of k blocks ->
  rabin_miller_test w fuel rounds n blocks = ROk true \/ rabin_miller_test w fuel rounds n blocks = RStuck.
Proof.
  intros w fuel rounds n vn k blocks Hw Hn Pn L F. unfold rabin_miller_test. rewrite (cmp_le w Hw _ _ _ _ Hn (lit_int w Hw 3 ltac:(lia))). destruct (Z.leb_spec vn 3).
  - left. rewrite (cmp_eq w Hw _ _ _ _ Hn (lit_int w Hw 2 ltac:(lia))), (cmp_eq w Hw _ _ _ _ Hn (lit_int w Hw 3 ltac:(lia))). destruct (small_prime vn) as [E|E]; auto; subst; reflexivity.
  - eapply rabin_miller_prime; eauto.
Qed.
(** On every odd number the tests decide Fermat's and Miller's condition. *)
Theorem C74_exact : forall w fuel n b vn vb, word_bits w -> is_int w n vn -> is_int w b vb -> 3 < vn -> vn mod 2 = 1 -> 1 < vb < vn -> vn <= Z.of_nat fuel ->
  (exists r, is_fermat_probable_prime w fuel n b = ROk r /\ (r = true <-> fermat_condition vn vb)) /\
  (exists r, is_strong_probable_prime w fuel n b = ROk r /\ (r = true <-> strong_condition vn vb)).
Proof. intros w fuel n b vn vb Hw; intros. split; [apply (fermat_exact w Hw)|apply (strong_exact w Hw)]; auto. Qed.
Example C74_example : prime 1009 /\ is_int 64 (small 1009) 1009 /\ is_int 64 (small 11) 11 /\ is_strong_probable_prime 64 1100 (small 1009) (small 11) = ROk true /\
  is_fermat_probable_prime 64 1100 (small 341) (small 2) = ROk true /\ is_strong_probable_prime 64 1100 (small 341) (small 2) = ROk false /\
  blocks_of 2 [[3; 200]; [1; 7]; [0; 99]] /\ rabin_miller_test 64 1100 3 (small 1009) [[3; 200]; [1; 7]; [0; 99]] = ROk true.
Proof.
  split; [small_prime|]. split; [lit 1%nat|]. split; [lit 1%nat|]. do 3 (split; [vm_compute; reflexivity|]). split; [|vm_compute; reflexivity].
  repeat constructor; lia.
Qed.

(* ------------------------------------------------------------------------- C75 *)
(** A square modulo an odd prime has its root found; for p = 1 mod 4 anything else gives zero. *)
Theorem C75_square_root : forall w fuel a p va vp, word_bits w -> is_int w a va -> is_int w p vp -> prime vp -> vp mod 2 = 1 -> vp < Z.of_nat fuel - 1 ->
  exists s v, modular_square_root w fuel a p = ROk s /\ is_int w s v /\ 0 <= v < vp /\
    ((exists x, (x * x) mod vp = va mod vp) -> (v * v) mod vp = va mod vp) /\
    (vp mod 4 = 1 -> ~ (exists x, (x * x) mod vp = va mod vp) -> v = 0).
Proof. intros w fuel a p va vp Hw Ha Hp Pp O L. apply (square_root_mod w Hw p vp Hp (conj Pp O) fuel a va Ha L). Qed.
(** For p = 3 mod 4 a number that is not a square gives another number, which is not a root. *)
Theorem C75_no_root_refuted : exists w fuel a p va vp s v, word_bits w /\ is_int w a va /\ is_int w p vp /\ prime vp /\ vp mod 2 = 1 /\ vp < Z.of_nat fuel - 1 /\
  ~ (exists x, (x * x) mod vp = va mod vp) /\ modular_square_root w fuel a p = ROk s /\ is_int w s v /\ v <> 0.
Proof.
  exists 64, 20%nat, (small 3), (small 7), 3, 7, (small 2), 2. split; [right; reflexivity|]. split; [lit 1%nat|]. split; [lit 1%nat|]. split; [small_prime|]. split; [reflexivity|]. split; [reflexivity|].
  split. { intros (x & E). rewrite Z.mul_mod in E by lia. pose proof (Z.mod_pos_bound x 7 ltac:(lia)) as B. assert (C : x mod 7 = 0 \/ x mod 7 = 1 \/ x mod 7 = 2 \/ x mod 7 = 3 \/ x mod 7 = 4 \/ x mod 7 = 5 \/ x mod 7 = 6) by lia. decompose [or] C; rewrite H in E || rewrite H0 in E; discriminate E. }
  split; [vm_compute; reflexivity|]. split; [lit 1%nat|lia].
Qed.
Example C75_example : prime 641 /\ 641 mod 4 = 1 /\ modular_square_root 64 700 (small 2) (small 641) = ROk (small 574) /\ (574 * 574) mod 641 = 2 /\ modular_square_root 64 700 (small 3) (small 641) = ROk (small 0).
Proof. split; [small_prime|]. do 3 (split; [vm_compute; reflexivity|]). vm_compute. reflexivity. Qed.

(* ------------------------------------------------------------------------- C76 *)
Theorem C76_quadratic : forall w fuel a b c p va vb vc vp, word_bits w -> is_int w a va -> is_int w b vb -> is_int w c vc -> is_int w p vp -> prime vp -> vp mod 2 = 1 -> va mod vp <> 0 ->
  (length (reg a) <= length (reg p))%nat -> vp < Z.of_nat fuel - 1 ->
  exists o, solve_quadratic w fuel a b c p = ROk o /\
    match o with
    | None => forall x, (va * x * x + vb * x + vc) mod vp <> 0
    | Some (r1, r2) => exists v1 v2, is_int w r1 v1 /\ is_int w r2 v2 /\ forall x, (va * x * x + vb * x + vc) mod vp = 0 <-> x mod vp = v1 \/ x mod vp = v2
    end.
Proof. intros w fuel a b c p va vb vc vp Hw Ha Hb Hc Hp Pp O N La L. apply (quadratic w Hw); auto. split; auto. intros D. apply N. destruct D as [k ->]. apply Z.mod_mul. destruct Pp. lia. Qed.
(** 3 x^2 - 21 x + 36 = 3 (x - 3) (x - 4); 3 x^2 + 5 x - 7 has no root modulo 101. *)
Example C76_example : prime 101 /\ is_int 64 (mkInt true [21; 0]) (-21) /\ solve_quadratic 64 200 (small 3) (mkInt true [21; 0]) (small 36) (small 101) = ROk (Some (small 3, small 4)) /\
  solve_quadratic 64 200 (small 3) (small 5) (mkInt true [7; 0]) (small 101) = ROk None.
Proof. split; [small_prime|]. split; [lit 1%nat|]. split; vm_compute; reflexivity. Qed.

(* ------------------------------------------------------------------------- C78 *)
Theorem C78_lucas : forall w e p n ve vp vn V, word_bits w -> is_int w e ve -> is_int w p vp -> is_int w n vn -> 0 <= ve -> 1 < vn -> vn mod 2 = 1 -> lucas_sequence vp V ->
  exists r v, lucas w e p n = ROk r /\ is_int w r v /\ v mod vn = V (Z.to_nat ve) mod vn /\ (0 < ve -> 0 <= v < vn).
Proof. intros w e p n ve vp vn V Hw. apply lucas_int; auto. Qed.
Fixpoint lucas_pair (p : Z) (k : nat) : Z * Z := match k with O => (2, p) | S j => let '(a, b) := lucas_pair p j in (b, p * b - a) end.
Example C78_example : lucas_sequence 5 (fun k => fst (lucas_pair 5 k)) /\ lucas 64 (small 11) (small 5) (small 1000003) = ROk (small 547355) /\ fst (lucas_pair 5 11) mod 1000003 = 547355.
Proof. split; [|split; vm_compute; reflexivity]. split; [reflexivity|]. split; [reflexivity|]. intros k. cbn [lucas_pair]. destruct (lucas_pair 5 k) as [a b]. reflexivity. Qed.

(* ------------------------------------------------------------------------- C79 *)
(** Randomize(rng, lo, hi) draws numbers of as many bits as hi-lo has until one does not exceed hi-lo; it returns lo plus that number, and consumes exactly the blocks it drew. *)
Theorem C79_randomize : forall w lo hi vl vh blocks, word_bits w -> is_int w lo vl -> is_int w hi vh -> vl <= vh -> blocks_of (S (bit_length (vh - vl) / 8)) blocks ->
  let bits := bit_length (vh - vl) in
  (Forall (fun b => vh - vl < draw bits b) blocks /\ randomize w lo hi blocks = RStuck) \/
  exists pre b post r, blocks = pre ++ b :: post /\ Forall (fun b => vh - vl < draw bits b) pre /\ draw bits b <= vh - vl /\ randomize w lo hi blocks = ROk (r, post) /\ is_int w r (vl + draw bits b).
Proof.
  intros w lo hi vl vh blocks Hw Hl Hh L F. destruct (randomize_exact w Hw lo hi vl vh blocks Hl Hh L F) as [H|(pre & b & post & r & H1 & H2 & H3 & H4 & H5 & _)]; [left; auto|right; exists pre, b, post, r; auto 6].
Qed.
(** Each number of that many bits comes from equally many blocks: one for each of the 2^(8n-bits) ways to fill the bits that are cropped. *)
Theorem C79_uniform : forall bits v, 0 <= v < 2 ^ Z.of_nat bits -> forall b, (Forall (fun x => 0 <= x < 256) b /\ length b = S (bits / 8)) ->
  (draw bits b = v <-> exists k, 0 <= k < 2 ^ (8 * Z.of_nat (S (bits / 8)) - Z.of_nat bits) /\ b = be_bytes (S (bits / 8)) (k * 2 ^ Z.of_nat bits + v)).
Proof. exact draw_uniform. Qed.
Theorem C79_empty_range : forall w lo hi vl vh blocks, word_bits w -> is_int w lo vl -> is_int w hi vh -> vh < vl -> randomize w lo hi blocks = RThrow.
Proof. intros w lo hi vl vh blocks Hw Hl Hh L. unfold randomize. rewrite (cmp_gt w Hw _ _ _ _ Hl Hh). destruct (Z.ltb_spec vh vl); [reflexivity|lia]. Qed.
Example C79_example : let blocks := [[1; 50]; [9; 100]; [0; 7]; [0; 3]] in blocks_of (S (bit_length (309 - 10) / 8)) blocks /\ map (draw (bit_length (309 - 10))) blocks = [306; 356; 7; 3] /\
  randomize 64 (small 10) (small 309) blocks = ROk (small 17, [[0; 3]]).
Proof. cbv zeta. split; [|split; vm_compute; reflexivity]. change (S (bit_length (309 - 10) / 8)) with 2%nat. repeat constructor; lia. Qed.
Print Assumptions C43_crt.
Print Assumptions C43_modular_root.
Print Assumptions C43_modular_root_of.
Print Assumptions C44_jacobi.
Print Assumptions C74_prime_passes.
Print Assumptions C74_rabin_miller.
Print Assumptions C74_exact.
Print Assumptions C75_square_root.
Print Assumptions C75_no_root_refuted.
Print Assumptions C76_quadratic.
Print Assumptions C78_lucas.
Print Assumptions C79_randomize.
Print Assumptions C79_uniform.
Print Assumptions C79_empty_range.
