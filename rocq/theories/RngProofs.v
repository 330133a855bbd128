(** Proofs about the random number helpers. *)
From Coq Require Import ZArith List Bool Arith Lia Permutation.
From Verif Require Import Base AsnModel AsnProofs IntegerModel ModesModel PolicyProofs NbSpec RngModel RngSpec.
Import ListNotations.
Local Open Scope Z_scope.

Lemma bit_length_bound v : 0 <= v -> v < 2 ^ Z.of_nat (bit_length v).
Proof.
  intros P. unfold bit_length. destruct (Z.eqb_spec v 0) as [->|N]; [reflexivity|]. pose proof (Z.log2_nonneg v). rewrite Z2Nat.id by lia. pose proof (Z.log2_spec v ltac:(lia)) as L. rewrite Z.add_1_r. lia.
Qed.
Lemma precision_length v : 0 <= v < 2 ^ 32 -> bit_precision 32 v = Z.of_nat (bit_length v) /\ (bit_length v <= 32)%nat.
Proof.
  intros R. unfold bit_length. destruct (Z.eqb_spec v 0) as [->|N]; [split; [reflexivity|lia]|]. destruct (bit_precision_spec v ltac:(lia)) as (A & B). cbv zeta in A, B.
  pose proof (Z.log2_unique v (bit_precision 32 v - 1) ltac:(lia) ltac:(replace (Z.succ (bit_precision 32 v - 1)) with (bit_precision 32 v) by lia; auto)) as L. rewrite L. lia.
Qed.
Lemma crop_low v n : 0 <= v < 2 ^ 32 -> (n <= 32)%nat -> crop 32 v (Z.of_nat n) = v mod 2 ^ Z.of_nat n.
Proof.
  intros R L. unfold crop. destruct (Z.ltb_spec (Z.of_nat n) 32) as [C|C].
  - rewrite <- Z.land_ones by lia. f_equal. rewrite Z.ones_equiv. lia.
  - replace (Z.of_nat n) with 32 by lia. rewrite Z.mod_small; auto.
Qed.

Lemma loop_exact range ws : 0 <= range < 2 ^ 32 -> words32 ws ->
  (word32_loop range (bit_precision 32 range) ws = RStuck /\ Forall (fun v => range < low_bits range v) ws) \/
  exists rejected v rest, ws = rejected ++ v :: rest /\ Forall (fun v => range < low_bits range v) rejected /\ low_bits range v <= range /\ word32_loop range (bit_precision 32 range) ws = ROk (low_bits range v, rest).
Proof.
  intros R F. destruct (precision_length range R) as (P & L). induction F as [|v t Hv Ht IH]; [left; split; [reflexivity|constructor]|]. cbn [word32_loop]. cbv zeta. rewrite P in *. rewrite crop_low by auto.
  change (v mod 2 ^ Z.of_nat (bit_length range)) with (low_bits range v). rewrite Z.gtb_ltb. destruct (Z.ltb_spec range (low_bits range v)) as [C|C].
  - destruct IH as [(E & G)|(rej & u & rest & -> & G & H & E)].
    + left. split; auto.
    + right. exists (v :: rej), u, rest. repeat split; auto.
  - right. exists [], v, t. repeat split; auto.
Qed.
Lemma low_bits_nonneg range v : 0 <= low_bits range v.
Proof. unfold low_bits. apply Z.mod_pos_bound. apply Z.pow_pos_nonneg; lia. Qed.

Theorem word32_exact lo hi ws : 0 <= lo <= hi -> hi < 2 ^ 32 -> words32 ws ->
  (generate_word32 lo hi ws = RStuck /\ Forall (fun v => hi - lo < low_bits (hi - lo) v) ws) \/
  exists rejected v rest, ws = rejected ++ v :: rest /\ Forall (fun v => hi - lo < low_bits (hi - lo) v) rejected /\ low_bits (hi - lo) v <= hi - lo /\ generate_word32 lo hi ws = ROk (lo + low_bits (hi - lo) v, rest).
Proof.
  intros A B F. unfold generate_word32. cbv zeta. rewrite (Z.mod_small (hi - lo)) by lia. destruct (loop_exact (hi - lo) ws ltac:(lia) F) as [(E & G)|(rej & v & rest & W & G & H & E)]; rewrite E; cbn [rbind fst snd].
  - left. auto.
  - right. exists rej, v, rest. repeat split; auto. pose proof (low_bits_nonneg (hi - lo) v). rewrite Z.mod_small by lia. do 2 f_equal. lia.
Qed.
Theorem word32_wraps lo hi ws r rest : words32 ws -> generate_word32 lo hi ws = ROk (r, rest) -> 0 <= r < 2 ^ 32 /\ (r - lo) mod 2 ^ 32 <= (hi - lo) mod 2 ^ 32.
Proof.
  intros F E. unfold generate_word32 in E. cbv zeta in E. set (range := (hi - lo) mod 2 ^ 32) in *. assert (R : 0 <= range < 2 ^ 32) by (apply Z.mod_pos_bound; lia).
  destruct (loop_exact range ws R F) as [(E' & G)|(rej & v & rest' & W & G & H & E')]; rewrite E' in E; cbn [rbind fst snd] in E; [discriminate|]. injection E as <- <-. pose proof (low_bits_nonneg range v). split; [apply Z.mod_pos_bound; lia|].
  rewrite Zminus_mod_idemp_l. replace (low_bits range v + lo - lo) with (low_bits range v) by lia. rewrite Z.mod_small by lia. auto.
Qed.
Theorem low_bits_uniform range c : 0 <= range < 2 ^ 32 -> 0 <= c <= range -> forall v, 0 <= v < 2 ^ 32 ->
  (low_bits range v = c <-> exists k, 0 <= k < 2 ^ (32 - Z.of_nat (bit_length range)) /\ v = k * 2 ^ Z.of_nat (bit_length range) + c).
Proof.
  intros R C v V. unfold low_bits. destruct (precision_length range R) as (_ & L). pose proof (bit_length_bound range ltac:(lia)) as B. set (n := Z.of_nat (bit_length range)) in *. assert (P : 0 < 2 ^ n) by (apply Z.pow_pos_nonneg; lia).
  assert (S2 : 2 ^ 32 = 2 ^ (32 - n) * 2 ^ n) by (rewrite <- Z.pow_add_r by lia; f_equal; lia). split.
  - intros E. exists (v / 2 ^ n). pose proof (Z.div_mod v (2 ^ n) ltac:(lia)). split; [split; [apply Z.div_pos; lia|apply Z.div_lt_upper_bound; lia]|lia].
  - intros (k & K & ->). rewrite Z.add_comm, Z.mod_add by lia. apply Z.mod_small. lia.
Qed.

(* ------------------------------------------------------------------ Shuffle *)
Lemma word32_small hi v rest : 0 <= v <= hi -> hi < 2 ^ 32 -> generate_word32 0 hi (v :: rest) = ROk (v, rest).
Proof.
  intros V H. unfold generate_word32. cbv zeta. rewrite Z.sub_0_r, (Z.mod_small hi) by lia. destruct (precision_length hi ltac:(lia)) as (P & L). pose proof (bit_length_bound hi ltac:(lia)). cbn [word32_loop]. cbv zeta. rewrite P, crop_low by (auto; lia). rewrite (Z.mod_small v) by lia. rewrite Z.gtb_ltb.
  destruct (Z.ltb_spec hi v); [lia|]. cbn [rbind fst snd]. rewrite Z.mod_small by lia. do 2 f_equal. lia.
Qed.
Lemma swap_split {A} (l : list A) i : (i < length l)%nat -> exists y r, iter_swap l i = y :: r /\ Permutation l (y :: r) /\ nth_error l i = Some y /\ length r = (length l - 1)%nat.
Proof.
  destruct l as [|x t]; intros L; [cbn in L; lia|]. unfold iter_swap. destruct (nth_error (x :: t) i) as [y|] eqn:E; [|apply nth_error_None in E; lia].
  destruct i as [|j]; cbn [nth_error upd] in *.
  - injection E as ->. exists y, t. repeat split; auto. cbn. lia.
  - exists y, (upd j x t). cbn [length] in *. split; auto. split; [|rewrite upd_length; split; auto; lia].
    clear L. revert j E. induction t as [|z t IH]; intros j E; [destruct j; discriminate|]. destruct j as [|j]; cbn [nth_error upd] in *.
    + injection E as ->. apply perm_swap.
    + etransitivity; [apply perm_swap|]. etransitivity; [apply perm_skip, (IH j E)|]. apply perm_swap.
Qed.
Theorem shuffle_perm {A} n : forall (l : list A) ws l' rest, length l = n -> words32 ws -> shuffle_loop n l ws = ROk (l', rest) -> Permutation l l' /\ exists used, ws = used ++ rest.
Proof.
  induction n as [|n IH]; intros l ws l' rest L F E; cbn [shuffle_loop] in E.
  - injection E as <- <-. destruct l; [|discriminate]. split; auto. exists []; auto.
  - destruct (generate_word32 0 _ ws) as [[i w1]| | | |] eqn:G; cbn [rbind fst snd] in E; try discriminate. assert (R : 0 <= i) by (apply (word32_wraps _ _ _ _ _ F G)).
    assert (U : exists u, ws = u ++ w1).
    { unfold generate_word32 in G. cbv zeta in G. rewrite Z.sub_0_r, Z.mod_mod in G by lia. destruct (loop_exact ((Z.of_nat (S n) - 1) mod 2 ^ 32) ws ltac:(apply Z.mod_pos_bound; lia) F) as [(E' & _)|(rej & v & rest' & W & _ & _ & E')]; rewrite E' in G; cbn [rbind fst snd] in G; [discriminate|]. injection G as <- <-. exists (rej ++ [v]). rewrite <- app_assoc. auto. }
    destruct (Z.ltb_spec i (Z.of_nat (S n))) as [I|]; [|discriminate]. destruct (swap_split l (Z.to_nat i) ltac:(lia)) as (y & r & W & P & _ & Lr). rewrite W in E. cbn [skipn firstn] in E.
    destruct (shuffle_loop n r w1) as [[l2 w2]| | | |] eqn:G2; cbn [rbind fst snd] in E; try discriminate. injection E as <- <-. destruct U as (u & ->). apply Forall_app in F as (_ & F).
    destruct (IH r w1 l2 w2 ltac:(lia) F G2) as (P2 & u2 & ->). split; [etransitivity; [exact P|]; cbn [app]; auto|]. exists (u ++ u2). rewrite app_assoc. auto.
Qed.
Theorem shuffle_stuck {A} n : forall (l : list A) ws, length l = n -> words32 ws -> shuffle_loop n l ws = RStuck \/ exists l' rest, shuffle_loop n l ws = ROk (l', rest).
Proof.
  induction n as [|n IH]; intros l ws L F; cbn [shuffle_loop]; [right; eauto|]. unfold generate_word32. cbv zeta. rewrite Z.sub_0_r, Z.mod_mod by lia. set (range := (Z.of_nat (S n) - 1) mod 2 ^ 32). assert (R : 0 <= range < 2 ^ 32) by (apply Z.mod_pos_bound; lia).
  destruct (loop_exact range ws R F) as [(E' & _)|(rej & v & rest' & W & _ & B & E')]; rewrite E'; cbn [rbind fst snd]; [left; auto|]. pose proof (low_bits_nonneg range v). rewrite Z.add_0_r, Z.mod_small by lia.
  assert (range <= Z.of_nat (S n) - 1) by (apply Z.mod_le; lia). destruct (Z.ltb_spec (low_bits range v) (Z.of_nat (S n))); [|lia]. destruct (swap_split l (Z.to_nat (low_bits range v)) ltac:(lia)) as (y & r & Q & _ & _ & Lr). rewrite Q. cbn [skipn firstn].
  subst ws. apply Forall_app in F as (_ & F). inversion F; subst. destruct (IH r rest' ltac:(lia) H5) as [->|(l' & rest & ->)]; cbn [rbind]; eauto.
Qed.
Lemma shuffle_step {A} n (l : list A) v ws y r : length l = S n -> 0 <= v < Z.of_nat (S n) -> Z.of_nat (S n) <= 2 ^ 32 -> iter_swap l (Z.to_nat v) = y :: r ->
  shuffle_loop (S n) l (v :: ws) = rbind (shuffle_loop n r ws) (fun s => ROk (y :: fst s, snd s)).
Proof.
  intros L V B W. cbn [shuffle_loop]. rewrite (Z.mod_small (Z.of_nat (S n) - 1)) by lia. rewrite word32_small by lia. cbn [rbind fst snd]. destruct (Z.ltb_spec v (Z.of_nat (S n))); [|lia]. rewrite W. reflexivity.
Qed.
Lemma shuffle_words_S n v ws : shuffle_words (S n) (v :: ws) <-> 0 <= v < Z.of_nat (S n) /\ shuffle_words n ws.
Proof.
  unfold shuffle_words. cbn [length]. split.
  - intros (L & H). split; [apply (H 0%nat); lia|]. split; [lia|]. intros k K. apply (H (S k)). lia.
  - intros (V & L & H). split; [lia|]. intros [|k] K; [auto|]. apply (H k). lia.
Qed.
Theorem shuffle_unique {A} n : forall (l l' : list A), NoDup l -> length l = n -> Z.of_nat n <= 2 ^ 32 -> Permutation l l' ->
  exists ws, (shuffle_words n ws /\ shuffle_loop n l ws = ROk (l', [])) /\ forall ws', shuffle_words n ws' /\ shuffle_loop n l ws' = ROk (l', []) -> ws' = ws.
Proof.
  induction n as [|n IH]; intros l l' D L B P.
  - destruct l; [|discriminate]. apply Permutation_nil in P. subst. exists []. split; [split; [split; [reflexivity|intros; lia]|reflexivity]|]. intros ws' ((W & _) & _). destruct ws'; [auto|discriminate].
  - destruct l' as [|y l']; [apply Permutation_length in P; cbn in P; lia|]. assert (In y l) as I by (apply (Permutation_in y (Permutation_sym P)); left; auto). apply In_nth_error in I as (i & I).
    assert (Li : (i < S n)%nat) by (rewrite <- L; apply nth_error_Some; congruence).
    destruct (swap_split l i ltac:(lia)) as (y' & r & S1 & Pr & N & Lr). assert (y' = y) by congruence. subst y'.
    assert (P2 : Permutation r l') by (apply (Permutation_cons_inv (a := y)); etransitivity; [symmetry; exact Pr|exact P]).
    assert (Dr : NoDup r) by (apply (Permutation_NoDup Pr) in D; inversion D; auto). destruct (IH r l' Dr ltac:(lia) ltac:(lia) P2) as (ws & (W & E) & U).
    exists (Z.of_nat i :: ws). split.
    + split; [apply shuffle_words_S; split; [lia|auto]|]. rewrite (shuffle_step n l (Z.of_nat i) ws y r) by (auto; try lia; rewrite Nat2Z.id; auto). rewrite E. reflexivity.
    + intros [|v ws'] (W' & E'); [destruct W'; discriminate|]. apply shuffle_words_S in W' as (V & W').
      destruct (swap_split l (Z.to_nat v) ltac:(lia)) as (y' & r' & S2 & _ & N2 & Lr2). rewrite (shuffle_step n l v ws' y' r') in E' by auto. destruct (shuffle_loop n r' ws') as [[l2 w2]| | | |] eqn:G; cbn [rbind fst snd] in E'; try discriminate. injection E' as -> -> ->.
      assert (Q : Z.to_nat v = i) by (apply (proj1 (NoDup_nth_error l) D); [lia|congruence]). rewrite Q in S2. rewrite S1 in S2. injection S2 as <-. f_equal; [lia|]. apply U. auto.
Qed.

(* ------------------------------------------------------------------ LC_RNG *)
Lemma lc_step_value seed : 0 <= seed < 2 ^ 31 -> lc_step seed = let t := 48271 * (seed mod 44488) - 3399 * (seed / 44488) in if t <? 0 then 2 ^ 32 + t else if t =? 0 then 2 ^ 31 - 1 else t.
Proof.
  intros R. unfold lc_step, LC_A, LC_R, LC_Q, LC_M. cbv zeta. pose proof (Z.mod_pos_bound seed 44488 ltac:(lia)) as L. assert (H : 0 <= seed / 44488 < 48272) by (split; [apply Z.div_pos; lia|apply Z.div_lt_upper_bound; lia]).
  set (lo := seed mod 44488) in *. set (hi := seed / 44488) in *. clearbody lo hi. rewrite (Z.mod_small (48271 * lo)), (Z.mod_small (3399 * hi)) by lia. rewrite Z.gtb_ltb. destruct (Z.ltb_spec (48271 * lo - 3399 * hi) 0) as [N|N].
  - replace ((48271 * lo - 3399 * hi) mod 2 ^ 32) with (2 ^ 32 + (48271 * lo - 3399 * hi)) by (apply Z.mod_unique_pos with (-1); lia). destruct (Z.ltb_spec 0 (2 ^ 32 + (48271 * lo - 3399 * hi))); [|lia]. apply Z.mod_small. lia.
  - rewrite (Z.mod_small (48271 * lo - 3399 * hi)) by lia. destruct (Z.eqb_spec (48271 * lo - 3399 * hi) 0) as [E|E].
    + rewrite E. reflexivity.
    + destruct (Z.ltb_spec 0 (48271 * lo - 3399 * hi)); [|lia]. apply Z.mod_small. lia.
Qed.
Theorem lc_step_recurrence seed : 0 < seed < 2 ^ 31 - 1 -> (lc_step seed = park_miller seed <-> 3399 * (seed / 44488) < 48271 * (seed mod 44488)).
Proof.
  intros R. rewrite lc_step_value by lia. cbv zeta. unfold park_miller. pose proof (Z.div_mod seed 44488 ltac:(lia)) as D. pose proof (Z.mod_pos_bound seed 44488 ltac:(lia)) as L. assert (H : 0 <= seed / 44488 < 48272) by (split; [apply Z.div_pos; lia|apply Z.div_lt_upper_bound; lia]).
  set (lo := seed mod 44488) in *. set (hi := seed / 44488) in *. clearbody lo hi. assert (E : 48271 * seed = (48271 * lo - 3399 * hi) + hi * (2 ^ 31 - 1)) by lia. rewrite E, Z.mod_add by lia.
  pose proof (Z.mod_pos_bound (48271 * lo - 3399 * hi) (2 ^ 31 - 1) ltac:(lia)) as M. destruct (Z.ltb_spec (48271 * lo - 3399 * hi) 0) as [N|N]; [lia|]. destruct (Z.eqb_spec (48271 * lo - 3399 * hi) 0) as [E0|E0]; [lia|]. rewrite Z.mod_small by lia. lia.
Qed.
Lemma lc_generate_spec n : forall seed, lc_generate n seed = (map (fun i => lc_byte (iterate lc_step (S i) seed)) (seq 0 n), iterate lc_step n seed).
Proof.
  induction n as [|n IH]; intros seed; [reflexivity|]. cbn [lc_generate]. rewrite IH. cbn [seq map]. f_equal. f_equal. rewrite <- seq_shift, map_map. reflexivity.
Qed.

(* ------------------------------------------------------------------ X9.17 *)
Lemma list_eqb_eq a : forall b, list_eqb a b = true <-> a = b.
Proof.
  induction a as [|x a IH]; intros [|y b]; cbn [list_eqb]; try (split; congruence). rewrite andb_true_iff, IH, Z.eqb_eq. split; [intros (-> & ->); auto|intros [= -> ->]; auto].
Qed.
Lemma last_any {A} (l : list A) : forall x d d', List.last (x :: l) d = List.last (x :: l) d'.
Proof. induction l as [|y l IH]; intros; [reflexivity|]. cbn [List.last] in *. apply (IH y). Qed.
Section X.
Variable E : list Z -> list Z.
Variable bs : nat.
Hypothesis Hbs : (1 <= bs)%nat.
Hypothesis HE : forall x, length (E x) = bs.
Lemma x917_loop_blocks n : forall fuel v last dt m, (m <= bs)%nat -> (n * bs + m <= fuel)%nat -> (0 < m)%nat ->
  let bl := x917_blocks E bs v dt (S n) in
  (no_repeat last bl -> exists s, x917_loop E bs fuel (n * bs + m) (mkX917 v last (be_bytes bs dt)) = ROk (firstn (n * bs + m) (concat bl), s) /\ x_last s = List.last bl last /\ x_time s = be_bytes bs (dt + Z.of_nat (S n)) /\
     forall k, x917_blocks E bs v dt (S n + k) = bl ++ x917_blocks E bs (x_seed s) (dt + Z.of_nat (S n)) k) /\
  (~ no_repeat last bl -> x917_loop E bs fuel (n * bs + m) (mkX917 v last (be_bytes bs dt)) = RThrow).
Proof.
  induction n as [|n IH]; intros fuel v last dt m M F P.
  - cbn [Nat.mul Nat.add] in *. destruct fuel as [|fuel]; [lia|]. destruct m as [|m]; [lia|]. cbn [x917_loop x917_blocks x_time x_seed x_last no_repeat concat List.last]. cbv zeta. rewrite (xorl_comm v). set (i := E (be_bytes bs dt)). set (r := E (xorl i v)).
    destruct (list_eqb last r) eqn:Q.
    + apply list_eqb_eq in Q. split; [intros (N & _); congruence|auto].
    + split.
      * intros _. rewrite Nat.min_r by lia. rewrite Nat.sub_diag. destruct fuel; cbn [x917_loop rbind fst snd]; (eexists; split; [rewrite !app_nil_r; reflexivity|]; cbn [x_last x_time x_seed]; split; auto; split; [pose proof (inc_counter_spec bs dt []) as I; rewrite !app_nil_r in I; rewrite I; f_equal; lia|]; intros k; cbn [app]; do 2 f_equal; lia).
      * intros N. exfalso. apply N. split; auto. intros ->. rewrite (proj2 (list_eqb_eq r r) eq_refl) in Q. discriminate.
  - destruct fuel as [|fuel]; [lia|]. remember (S n) as n1. cbn [x917_blocks]. cbv zeta. set (i := E (be_bytes bs dt)). set (r := E (xorl i v)). set (v' := E (xorl r i)). subst n1.
    assert (EQ : x917_loop E bs (S fuel) (S n * bs + m) (mkX917 v last (be_bytes bs dt)) = if list_eqb last r then RThrow else rbind (x917_loop E bs fuel (n * bs + m) (mkX917 v' r (be_bytes bs (dt + 1)))) (fun os => ROk (r ++ fst os, snd os))).
    { cbn [Nat.mul]. replace (bs + n * bs + m)%nat with (S (bs - 1 + n * bs + m)) by lia. cbn [x917_loop x_time x_seed x_last]. cbv zeta. rewrite (xorl_comm v). fold i. fold r. fold v'. destruct (list_eqb last r); auto.
      rewrite Nat.min_l by lia. pose proof (inc_counter_spec bs dt []) as I; rewrite !app_nil_r in I; rewrite I. rewrite (firstn_all2 r) by (unfold r; rewrite HE; lia). replace (S (bs - 1 + n * bs + m) - bs)%nat with (n * bs + m)%nat by lia. reflexivity. }
    rewrite EQ. destruct (IH fuel v' r (dt + 1) m M ltac:(cbn [Nat.mul] in F; lia) P) as (A & B). cbn [no_repeat]. destruct (list_eqb last r) eqn:Q.
    + apply list_eqb_eq in Q. split; [intros (N & _); congruence|auto].
    + assert (last <> r) by (intros ->; rewrite (proj2 (list_eqb_eq r r) eq_refl) in Q; discriminate). split.
      * intros (_ & N). destruct (A N) as (s & Es & Ls & Ts & Ks). exists s. rewrite Es. cbn [rbind fst snd concat]. split.
        { f_equal. f_equal. cbn [Nat.mul]. rewrite <- Nat.add_assoc. rewrite firstn_app. rewrite (firstn_all2 r) by (unfold r; rewrite HE; lia). unfold r at 3. rewrite HE. f_equal. f_equal. lia. }
        split; [rewrite Ls; change (List.last (r :: x917_blocks E bs v' (dt + 1) (S n)) last) with (List.last (x917_blocks E bs v' (dt + 1) (S n)) last); cbn [x917_blocks]; cbv zeta; apply last_any|]. split; [rewrite Ts; f_equal; lia|]. intros k. change (x917_blocks E bs v dt (S (S n) + k)) with (r :: x917_blocks E bs v' (dt + 1) (S n + k)). rewrite Ks. change ((r :: x917_blocks E bs v' (dt + 1) (S n)) ++ x917_blocks E bs (x_seed s) (dt + Z.of_nat (S (S n))) k) with (r :: (x917_blocks E bs v' (dt + 1) (S n) ++ x917_blocks E bs (x_seed s) (dt + Z.of_nat (S (S n))) k)). do 2 f_equal. f_equal. lia.
      * intros N. rewrite (B ltac:(tauto)). reflexivity.
Qed.
End X.
