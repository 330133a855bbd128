(** Properties C58, C59, C82, C83: the random number helpers. *)
From Coq Require Import ZArith List Bool Arith Lia Permutation.
From Verif Require Import Base AsnModel IntegerModel ModesModel NbSpec RngModel RngSpec RngProofs.
Import ListNotations.
Local Open Scope Z_scope.

(* ------------------------------------------------------------------------- C58 *)
(** GenerateWord32(lo, hi) returns a number in [lo, hi]: the first word of the generator whose low bits are in range, plus lo. It does not return only if no word of the generator will do. *)
Theorem C58_exact : forall lo hi ws, 0 <= lo <= hi -> hi < 2 ^ 32 -> words32 ws ->
  (generate_word32 lo hi ws = RStuck /\ Forall (fun v => hi - lo < low_bits (hi - lo) v) ws) \/
  exists rejected v rest, ws = rejected ++ v :: rest /\ Forall (fun v => hi - lo < low_bits (hi - lo) v) rejected /\ low_bits (hi - lo) v <= hi - lo /\ generate_word32 lo hi ws = ROk (lo + low_bits (hi - lo) v, rest).
Proof. exact word32_exact. Qed.
Theorem C58_in_range : forall lo hi ws r rest, 0 <= lo <= hi -> hi < 2 ^ 32 -> words32 ws -> generate_word32 lo hi ws = ROk (r, rest) -> lo <= r <= hi.
Proof.
  intros lo hi ws r rest A B F E. destruct (word32_exact lo hi ws A B F) as [(E' & _)|(rej & v & rest' & _ & _ & H & E')]; rewrite E' in E; [discriminate|]. injection E as <- <-. pose proof (low_bits_nonneg (hi - lo) v). lia.
Qed.
(** With hi below lo the range wraps around 2^32. *)
Theorem C58_wraps : forall lo hi ws r rest, words32 ws -> generate_word32 lo hi ws = ROk (r, rest) -> 0 <= r < 2 ^ 32 /\ (r - lo) mod 2 ^ 32 <= (hi - lo) mod 2 ^ 32.
Proof. exact word32_wraps. Qed.
(** Every number in range comes from equally many of the 2^32 words. *)
Theorem C58_uniform : forall range c, 0 <= range < 2 ^ 32 -> 0 <= c <= range -> forall v, 0 <= v < 2 ^ 32 ->
  (low_bits range v = c <-> exists k, 0 <= k < 2 ^ (32 - Z.of_nat (bit_length range)) /\ v = k * 2 ^ Z.of_nat (bit_length range) + c).
Proof. exact low_bits_uniform. Qed.
Example C58_example : generate_word32 10 14 [7; 4294967293; 18; 5] = ROk (12, [5]) /\ map (low_bits 4) [7; 4294967293; 18] = [7; 5; 2] /\ generate_word32 9 9 [3; 4] = ROk (9, [4]) /\ generate_word32 0 4294967295 [4294967295] = ROk (4294967295, []) /\
  generate_word32 4294967295 1 [2] = ROk (1, []).
Proof. repeat split; vm_compute; reflexivity. Qed.

(* ------------------------------------------------------------------------- C82 *)
(** Shuffle returns a permutation, stays inside the array, and each permutation of distinct elements is chosen by exactly one sequence of in-range numbers. *)
Theorem C82_permutation : forall (A : Type) (l : list A) ws, words32 ws -> shuffle l ws = RStuck \/ exists l' used rest, shuffle l ws = ROk (l', rest) /\ Permutation l l' /\ ws = used ++ rest.
Proof.
  intros A l ws F. unfold shuffle. destruct (shuffle_stuck (length l) l ws eq_refl F) as [->|(l' & rest & E)]; [left; auto|right]. destruct (shuffle_perm (length l) l ws l' rest eq_refl F E) as (P & u & U). exists l', u, rest. auto.
Qed.
Theorem C82_each_once : forall (A : Type) (l l' : list A), NoDup l -> Z.of_nat (length l) <= 2 ^ 32 -> Permutation l l' ->
  exists ws, (shuffle_words (length l) ws /\ shuffle l ws = ROk (l', [])) /\ forall ws', shuffle_words (length l) ws' /\ shuffle l ws' = ROk (l', []) -> ws' = ws.
Proof. intros A l l' D B P. apply shuffle_unique; auto. Qed.
Example C82_example : shuffle [10; 20; 30; 40] [2; 0; 1; 0] = ROk ([30; 20; 40; 10], []) /\ shuffle_words 4 [2; 0; 1; 0] /\ shuffle [1; 2; 3] [3; 6; 0; 99; 7] = ROk ([3; 2; 1], [7]).
Proof.
  split; [vm_compute; reflexivity|]. split; [|vm_compute; reflexivity]. split; [reflexivity|]. intros [|[|[|[|k]]]] K; cbn; lia.
Qed.

(* ------------------------------------------------------------------------- C59 *)
(** The step of LC_RNG is the recurrence exactly for the seeds with r*(seed/q) < a*(seed mod q): only then does Schrage's difference not wrap. *)
Theorem C59_step_partial : forall seed, 0 < seed < 2 ^ 31 - 1 -> (lc_step seed = park_miller seed <-> 3399 * (seed / 44488) < 48271 * (seed mod 44488)).
Proof. exact lc_step_recurrence. Qed.
(** The bytes put out are those of the successive seeds, however the requests are cut. *)
Theorem C59_bytes : forall n seed, lc_generate n seed = (map (fun i => lc_byte (iterate lc_step (S i) seed)) (seq 0 n), iterate lc_step n seed).
Proof. exact lc_generate_spec. Qed.
(** The state leaves the recurrence: from the seed 44488 at once, from the seed 1 with the fifth byte. *)
Theorem C59_recurrence_refuted : lc_step 44488 = 4294963897 /\ park_miller 44488 = 2147480248 /\
  exists n, iterate lc_step n 1 <> iterate park_miller n 1.
Proof. split; [vm_compute; reflexivity|]. split; [vm_compute; reflexivity|]. exists 5%nat. vm_compute. discriminate. Qed.
(** With the seed 0 all bytes ever put out are the same. *)
Theorem C59_zero_seed_refuted : forall n, fst (lc_generate n 0) = repeat 128 n.
Proof.
  assert (S1 : forall k, iterate lc_step k LC_M = LC_M) by (induction k as [|k IH]; [reflexivity|cbn [iterate]; change (lc_step LC_M) with LC_M; auto]).
  intros n. rewrite lc_generate_spec. cbn [fst]. rewrite <- (seq_length n 0) at 2. generalize (seq 0 n). induction l as [|i l IH]; [reflexivity|]. cbn [map repeat length]. f_equal; auto. cbn [iterate]. change (lc_step 0) with LC_M. rewrite S1. reflexivity.
Qed.
Example C59_example : 3399 * (1 / 44488) < 48271 * (1 mod 44488) /\ lc_step 1 = 48271 /\ lc_generate 3 1 = ([51; 93; 236], 1291394886).
Proof. split; [vm_compute; reflexivity|]. split; vm_compute; reflexivity. Qed.

(* ------------------------------------------------------------------------- C83 *)
(** X917RNG with a time vector puts out the blocks of ANSI X9.17, unless two successive ones are equal; then it throws. The state it leaves continues the sequence at the next block. *)
Theorem C83_generate : forall E bs v last dt size, (1 <= bs)%nat -> (forall x, length (E x) = bs) -> (0 < size)%nat ->
  let n := ((size - 1) / bs + 1)%nat in
  let bl := x917_blocks E bs v dt n in
  (no_repeat last bl -> exists s, x917_generate E bs size (mkX917 v last (be_bytes bs dt)) = ROk (firstn size (concat bl), s) /\ x_last s = List.last bl last /\ x_time s = be_bytes bs (dt + Z.of_nat n) /\
     forall k, x917_blocks E bs v dt (n + k) = bl ++ x917_blocks E bs (x_seed s) (dt + Z.of_nat n) k) /\
  (~ no_repeat last bl -> x917_generate E bs size (mkX917 v last (be_bytes bs dt)) = RThrow).
Proof.
  intros E bs v last dt size B HE P. cbv zeta. unfold x917_generate. pose proof (Nat.div_mod_eq (size - 1) bs) as D. pose proof (Nat.mod_upper_bound (size - 1) bs ltac:(lia)) as M. set (n := ((size - 1) / bs)%nat) in *. set (m := S ((size - 1) mod bs)) in *.
  assert (Sz : size = (n * bs + m)%nat) by (unfold m; lia). rewrite Nat.add_1_r. pose proof (x917_loop_blocks E bs B HE n size v last dt m ltac:(unfold m; lia) ltac:(lia) ltac:(unfold m; lia)) as X. cbv zeta in X. rewrite <- Sz in X. exact X.
Qed.
Theorem C83_constructor : forall E bs v last dt, (1 <= bs)%nat -> (forall x, length (E x) = bs) -> last <> E (xorl (E (be_bytes bs dt)) v) ->
  exists s, x917_new E bs v last (be_bytes bs dt) = ROk s /\ x_last s = E (xorl (E (be_bytes bs dt)) v) /\ x_time s = be_bytes bs (dt + 1) /\ forall k, x917_blocks E bs v dt (S k) = x_last s :: x917_blocks E bs (x_seed s) (dt + 1) k.
Proof.
  intros E bs v last dt B HE N. pose proof (x917_loop_blocks E bs B HE 0 bs v last dt bs ltac:(lia) ltac:(lia) ltac:(lia)) as X. cbv zeta in X. cbn [Nat.mul Nat.add] in X. destruct X as (X & _). destruct X as (s & Es & Ls & Ts & Ks); [cbn; auto|].
  exists s. unfold x917_new, x917_generate. rewrite Es. split; [reflexivity|]. split; [rewrite Ls; reflexivity|]. split; [rewrite Ts; reflexivity|]. intros k. specialize (Ks k). rewrite Ls. exact Ks.
Qed.
Example C83_example : let E := fun x => map (fun b => (5 * b + 3) mod 256) (rev x) in
  x917_generate E 2 5 (mkX917 [7; 9] [0; 0] (be_bytes 2 255)) = ROk ([53; 224; 189; 56; 120], mkX917 [109; 51] [120; 234] (be_bytes 2 258)) /\ no_repeat [0; 0] (x917_blocks E 2 [7; 9] 255 3).
Proof. cbv zeta. split; [vm_compute; reflexivity|]. vm_compute. repeat split; discriminate. Qed.

Print Assumptions C58_exact. Print Assumptions C58_in_range. Print Assumptions C58_wraps. Print Assumptions C58_uniform. Print Assumptions C82_permutation. Print Assumptions C82_each_once.
Print Assumptions C59_step_partial. Print Assumptions C59_bytes. Print Assumptions C59_recurrence_refuted. Print Assumptions C59_zero_seed_refuted. Print Assumptions C83_generate. Print Assumptions C83_constructor.
