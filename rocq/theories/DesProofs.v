(** Lemmas for DES: bits of words and of byte strings, the permutations as routes of bits, the round
    function, the key schedule. *)
From Coq Require Import ZArith List Bool Arith Lia.
From Verif Require Import Base CipherModel CipherSpec CipherProofs DesModel DesSpec.
Import ListNotations.
Open Scope nat_scope.

(** * Bits *)
Lemma nth_map_seq : forall A (g : nat -> A) n p d, p < n -> nth p (map g (seq 0 n)) d = g p.
Proof. intros A g n p d H. rewrite (nth_indep _ d (g 0)) by (rewrite map_length, seq_length; exact H). rewrite map_nth, seq_nth by exact H. reflexivity. Qed.

Lemma bits_of_length : forall s, length (bits_of s) = 8 * length s.
Proof. induction s as [|b s IH]; [reflexivity|]. unfold bits_of in *. cbn [flat_map]. rewrite app_length, IH, map_length, seq_length. cbn [length]. lia. Qed.
Lemma bits_of_app : forall a b, bits_of (a ++ b) = bits_of a ++ bits_of b.
Proof. intros. unfold bits_of. apply flat_map_app. Qed.
Lemma bits_of_nth : forall s p, p < 8 * length s -> nth p (bits_of s) false = Z.testbit (nth (p / 8) s 0%Z) (Z.of_nat (7 - p mod 8)).
Proof.
  induction s as [|b s IH]; intros p Hp; [cbn in Hp; lia|]. unfold bits_of in *. cbn [flat_map].
  destruct (Nat.lt_ge_cases p 8) as [L|L].
  - rewrite app_nth1 by (rewrite map_length, seq_length; exact L). rewrite nth_map_seq by exact L.
    rewrite Nat.div_small, Nat.mod_small by exact L. reflexivity.
  - rewrite app_nth2 by (rewrite map_length, seq_length; exact L). rewrite map_length, seq_length, IH by (cbn [length] in Hp; lia).
    replace p with ((p - 8) + 1 * 8) at 3 4 by lia. rewrite Nat.div_add, Nat.mod_add by lia. rewrite Nat.add_1_r. reflexivity.
Qed.
Lemma be_val_bit : forall s p, bytes s -> p < 8 * length s ->
  Z.testbit (be_val s) (Z.of_nat (8 * length s - 1 - p)) = nth p (bits_of s) false.
Proof.
  induction s as [|b s IH]; intros p HB Hp; [cbn in Hp; lia|]. inversion HB as [|? ? B1 B2]; subst.
  change (b :: s) with ([b] ++ s). rewrite be_val_app. rewrite bits_of_app.
  assert (E : be_val [b] = b) by (unfold be_val; cbn; lia). rewrite E.
  pose proof (be_val_bounds s B2) as BD. replace (256 ^ Z.of_nat (length s))%Z with (2 ^ (8 * Z.of_nat (length s)))%Z in * by (rewrite Z.pow_mul_r by lia; reflexivity).
  set (m := (8 * Z.of_nat (length s))%Z) in *. assert (0 < 2 ^ m)%Z by (apply Z.pow_pos_nonneg; lia).
  destruct (Nat.lt_ge_cases p 8) as [L|L].
  - rewrite app_nth1 by (rewrite bits_of_length; cbn [length]; lia). rewrite bits_of_nth by (cbn [length]; lia).
    rewrite Nat.div_small, Nat.mod_small by exact L. cbn [nth].
    replace (Z.of_nat (8 * length ([b] ++ s) - 1 - p)) with (Z.of_nat (7 - p) + m)%Z by (cbn [length app]; lia).
    rewrite <- Z.shiftr_spec by lia. rewrite Z.shiftr_div_pow2 by lia. rewrite Z.div_add_l by lia. rewrite Z.div_small by lia. rewrite Z.add_0_r. reflexivity.
  - rewrite app_nth2 by (rewrite bits_of_length; cbn [length]; lia). rewrite bits_of_length. cbn [length].
    rewrite <- (IH (p - 8 * 1)) by (auto; cbn [length] in Hp; lia).
    replace (Z.of_nat (8 * length ([b] ++ s) - 1 - p)) with (Z.of_nat (8 * length s - 1 - (p - 8 * 1))) by (cbn [length app]; lia).
    rewrite <- (Z.mod_pow2_bits_low (b * 2 ^ m + be_val s) m) by (cbn [length] in Hp; lia).
    rewrite Z.add_comm, Z.mod_add by lia. rewrite Z.mod_small by lia. reflexivity.
Qed.
Lemma list_ext : forall (a b : list bool), length a = length b -> (forall i, i < length a -> nth i a false = nth i b false) -> a = b.
Proof. intros a b H1 H2. apply (nth_ext a b false false); assumption. Qed.
Lemma bits_inj : forall a b, bytes a -> bytes b -> length a = length b -> bits_of a = bits_of b -> a = b.
Proof.
  intros a b HA HB HL H. destruct a as [|a0 a']; [destruct b; [reflexivity|discriminate]|]. set (a := a0 :: a') in *.
  apply be_val_inj; auto. apply (word_ext (8 * Z.of_nat (length a))); [cbn [length a]; lia| | |].
  - pose proof (be_val_bounds a HA) as X. replace (256 ^ Z.of_nat (length a))%Z with (2 ^ (8 * Z.of_nat (length a)))%Z in X by (rewrite Z.pow_mul_r by lia; reflexivity). exact X.
  - rewrite HL. pose proof (be_val_bounds b HB) as X. replace (256 ^ Z.of_nat (length b))%Z with (2 ^ (8 * Z.of_nat (length b)))%Z in X by (rewrite Z.pow_mul_r by lia; reflexivity). exact X.
  - intros k Hk. replace k with (Z.of_nat (8 * length a - 1 - (8 * length a - 1 - Z.to_nat k))) by lia.
    rewrite be_val_bit by (auto; lia). rewrite HL, be_val_bit by (auto; lia). rewrite H. reflexivity.
Qed.

Lemma select_nth : forall T b p, p < length T -> nth p (select T b) false = nth (nth p T 0 - 1) b false.
Proof. intros T b p H. unfold select. rewrite (nth_indep _ false (nth (0 - 1) b false)) by (rewrite map_length; exact H). apply (map_nth (fun i => nth (i - 1) b false)). Qed.
Lemma select_length : forall T b, length (select T b) = length T.
Proof. intros. apply map_length. Qed.
Lemma xor_length : forall a b, length a = length b -> length (xor_bits a b) = length a.
Proof. intros a b H. unfold xor_bits. rewrite map_length, combine_length. lia. Qed.
Lemma xor_nth : forall a b p, length a = length b -> p < length a -> nth p (xor_bits a b) false = xorb (nth p a false) (nth p b false).
Proof.
  induction a as [|x a IH]; intros [|y b] p H Hp; try discriminate; [cbn in Hp; lia|]. destruct p as [|p]; [reflexivity|].
  cbn [nth xor_bits combine map]. apply IH; [now injection H|cbn [length] in Hp; lia].
Qed.

(** * Routes: bit [i] of a word is bit [nth i T] of a bit string *)
Definition routed (B : list bool) (T : list nat) (x : Z) : Prop :=
  word 32 x /\ forall i, i < 32 -> Z.testbit x (Z.of_nat i) = nth (nth i T 0) B false.
Definition rot_route (n : nat) (T : list nat) : list nat := map (fun i => nth ((i + 32 - n) mod 32) T 0) (seq 0 32).
Definition mix_route (m : Z) (T U : list nat) : list nat := map (fun i => if Z.testbit m (Z.of_nat i) then nth i U 0 else nth i T 0) (seq 0 32).

Lemma lxor32 : forall x y, word 32 x -> word 32 y -> word 32 (Z.lxor x y).
Proof. intros. apply lxor_word; auto. lia. Qed.
Lemma land32 : forall x y, word 32 x -> word 32 y -> word 32 (Z.land x y).
Proof. intros. apply land_word; auto. lia. Qed.
Lemma rotl32 : forall x y, word 32 x -> word 32 (rotl 32 x y).
Proof. intros. apply rotl_word; auto; [lia|apply mask32]. Qed.

Lemma routed_lrot : forall B T x n, n < 32 -> routed B T x -> routed B (rot_route n T) (lrot (Z.of_nat n) x).
Proof.
  intros B T x n Hn [H1 H2]. unfold lrot. split; [apply rotl32; exact H1|].
  intros i Hi. rewrite (rotl_bit 32 ltac:(lia) mask32) by (auto; lia). unfold rot_route. rewrite nth_map_seq by exact Hi.
  rewrite <- H2 by (apply Nat.mod_upper_bound; lia). f_equal. rewrite Nat2Z.inj_mod. replace (Z.of_nat (i + 32 - n)) with (Z.of_nat i - Z.of_nat n + 1 * 32)%Z by lia.
  change (Z.of_nat 32) with 32%Z. rewrite Z_mod_plus_full. reflexivity.
Qed.
Lemma routed_rrot : forall B T x n, 0 < n < 32 -> routed B T x -> routed B (rot_route (32 - n) T) (rrot (Z.of_nat n) x).
Proof.
  intros B T x n Hn H. unfold rrot. rewrite rotr_rotl_opp.
  destruct (routed_lrot B T x (32 - n) ltac:(lia) H) as [G1 G2]. unfold lrot in *.
  replace (rotl 32 x (- Z.of_nat n)) with (rotl 32 x (Z.of_nat (32 - n))); [split; assumption|].
  apply (word_ext 32); [lia|apply rotl32, H|apply rotl32, H|].
  intros k Hk. rewrite !(rotl_bit 32 ltac:(lia) mask32) by (auto; apply H). f_equal.
  replace (k - - Z.of_nat n)%Z with (k - Z.of_nat (32 - n) + 1 * 32)%Z by lia. rewrite Z_mod_plus_full. reflexivity.
Qed.

Definition routed2 (B : list bool) (T U : list nat) (s : Z * Z) : Prop := routed B T (fst s) /\ routed B U (snd s).
Lemma r2_ll : forall B T U s n, n < 32 -> routed2 B T U s -> routed2 B (rot_route n T) U (on_left (lrot (Z.of_nat n)) s).
Proof. intros B T U s n Hn [H1 H2]. split; [apply routed_lrot; assumption|exact H2]. Qed.
Lemma r2_rl : forall B T U s n, n < 32 -> routed2 B T U s -> routed2 B T (rot_route n U) (on_right (lrot (Z.of_nat n)) s).
Proof. intros B T U s n Hn [H1 H2]. split; [exact H1|apply routed_lrot; assumption]. Qed.
Lemma r2_lr : forall B T U s n, 0 < n < 32 -> routed2 B T U s -> routed2 B (rot_route (32 - n) T) U (on_left (rrot (Z.of_nat n)) s).
Proof. intros B T U s n Hn [H1 H2]. split; [apply routed_rrot; assumption|exact H2]. Qed.
Lemma r2_rr : forall B T U s n, 0 < n < 32 -> routed2 B T U s -> routed2 B T (rot_route (32 - n) U) (on_right (rrot (Z.of_nat n)) s).
Proof. intros B T U s n Hn [H1 H2]. split; [exact H1|apply routed_rrot; assumption]. Qed.
Lemma r2_mix : forall B T U s m, word 32 m -> routed2 B T U s -> routed2 B (mix_route m T U) (mix_route m U T) (mix m s).
Proof.
  intros B T U [l r] m Hm [[H1 H2] [H3 H4]]. cbn [fst snd] in *. unfold mix. cbn [fst snd].
  assert (WW : word 32 (Z.land (Z.lxor l r) m)) by (apply land32; [apply lxor32; assumption|exact Hm]).
  split; (split; [cbn [fst snd]; apply lxor32; assumption|]); intros i Hi; cbn [fst snd];
    unfold mix_route; rewrite nth_map_seq by exact Hi; rewrite Z.lxor_spec, Z.land_spec, Z.lxor_spec, H2, H4 by exact Hi;
    destruct (Z.testbit m (Z.of_nat i)), (nth (nth i T 0) B false) eqn:E1, (nth (nth i U 0) B false) eqn:E2; cbn; rewrite ?E1, ?E2; reflexivity.
Qed.

(** The words between IPERM and FPERM hold the halves rotated by one bit. *)
Definition rot1 (off : nat) : list nat := map (fun i => off + (32 - i) mod 32) (seq 0 32).
Definition plain (off : nat) : list nat := map (fun i => off + (31 - i)) (seq 0 32).
Definition shows (x : Z) (L : list bool) : Prop := length L = 32 /\ routed L (rot1 0) x.

Lemma iperm_route : forall B s, routed2 B (plain 0) (plain 32) s -> routed2 B (map (fun i => nth ((32 - i) mod 32) IP 0 - 1) (seq 0 32)) (map (fun i => nth (32 + (32 - i) mod 32) IP 0 - 1) (seq 0 32)) (iperm s).
Proof.
  intros B s H. unfold iperm.
  assert (W0 : forall m, (0 <=? m)%Z && (m <? 2 ^ 32)%Z = true -> word 32 m) by (intros m X; apply andb_prop in X as [X1 X2]; unfold word; lia).
  pose proof (r2_rl _ _ _ _ 4 ltac:(lia) H) as H1.
  pose proof (r2_mix _ _ _ _ 0xf0f0f0f0%Z (W0 0xf0f0f0f0%Z eq_refl) H1) as H2. pose proof (r2_rr _ _ _ _ 20 ltac:(lia) H2) as H3.
  pose proof (r2_mix _ _ _ _ 0xffff0000%Z (W0 0xffff0000%Z eq_refl) H3) as H4. pose proof (r2_rr _ _ _ _ 18 ltac:(lia) H4) as H5.
  pose proof (r2_mix _ _ _ _ 0x33333333%Z (W0 0x33333333%Z eq_refl) H5) as H6. pose proof (r2_rr _ _ _ _ 6 ltac:(lia) H6) as H7.
  pose proof (r2_mix _ _ _ _ 0x00ff00ff%Z (W0 0x00ff00ff%Z eq_refl) H7) as H8. pose proof (r2_rl _ _ _ _ 9 ltac:(lia) H8) as H9.
  pose proof (r2_mix _ _ _ _ 0xaaaaaaaa%Z (W0 0xaaaaaaaa%Z eq_refl) H9) as H10. pose proof (r2_ll _ _ _ _ 1 ltac:(lia) H10) as H11.
  clear H H1 H2 H3 H4 H5 H6 H7 H8 H9 H10.
  match type of H11 with routed2 _ ?T ?U _ => let t := eval vm_compute in T in let u := eval vm_compute in U in
    replace T with t in H11 by (vm_compute; reflexivity); replace U with u in H11 by (vm_compute; reflexivity) end.
  exact H11.
Qed.
Lemma fperm_route : forall B s, routed2 B (rot1 32) (rot1 0) s -> routed2 B (map (fun i => nth (32 + (31 - i)) IP_inverse 0 - 1) (seq 0 32)) (map (fun i => nth (31 - i) IP_inverse 0 - 1) (seq 0 32)) (fperm s).
Proof.
  intros B s H. unfold fperm.
  assert (W0 : forall m, (0 <=? m)%Z && (m <? 2 ^ 32)%Z = true -> word 32 m) by (intros m X; apply andb_prop in X as [X1 X2]; unfold word; lia).
  pose proof (r2_rr _ _ _ _ 1 ltac:(lia) H) as H1.
  pose proof (r2_mix _ _ _ _ 0xaaaaaaaa%Z (W0 0xaaaaaaaa%Z eq_refl) H1) as H2. pose proof (r2_lr _ _ _ _ 9 ltac:(lia) H2) as H3.
  pose proof (r2_mix _ _ _ _ 0x00ff00ff%Z (W0 0x00ff00ff%Z eq_refl) H3) as H4. pose proof (r2_ll _ _ _ _ 6 ltac:(lia) H4) as H5.
  pose proof (r2_mix _ _ _ _ 0x33333333%Z (W0 0x33333333%Z eq_refl) H5) as H6. pose proof (r2_ll _ _ _ _ 18 ltac:(lia) H6) as H7.
  pose proof (r2_mix _ _ _ _ 0xffff0000%Z (W0 0xffff0000%Z eq_refl) H7) as H8. pose proof (r2_ll _ _ _ _ 20 ltac:(lia) H8) as H9.
  pose proof (r2_mix _ _ _ _ 0xf0f0f0f0%Z (W0 0xf0f0f0f0%Z eq_refl) H9) as H10. pose proof (r2_lr _ _ _ _ 4 ltac:(lia) H10) as H11.
  clear H H1 H2 H3 H4 H5 H6 H7 H8 H9 H10.
  match type of H11 with routed2 _ ?T ?U _ => let t := eval vm_compute in T in let u := eval vm_compute in U in
    replace T with t in H11 by (vm_compute; reflexivity); replace U with u in H11 by (vm_compute; reflexivity) end.
  exact H11.
Qed.

(** * The round function *)
Definition key_shows (k : Z * Z) (K : list bool) : Prop :=
  length K = 48 /\ word 32 (fst k) /\ word 32 (snd k)
  /\ forall h t, h < 4 -> t < 6 ->
     Z.testbit (fst k) (Z.of_nat (24 - 8 * h + t)) = nth (6 * (2 * h) + (5 - t)) K false
     /\ Z.testbit (snd k) (Z.of_nat (24 - 8 * h + t)) = nth (6 * (2 * h + 1) + (5 - t)) K false.

Definition six (z : Z) : list bool := map (fun l => Z.testbit z (Z.of_nat (5 - l))) (seq 0 6).
Lemma six_number : forall z, (0 <= z < 64)%Z -> Z.to_nat z = number (six z).
Proof.
  intros z Hz. assert (X : forallb (fun n => n =? number (six (Z.of_nat n))) (seq 0 64) = true) by (vm_compute; reflexivity).
  rewrite forallb_forall in X. specialize (X (Z.to_nat z)). rewrite Z2Nat.id in X by lia. apply Nat.eqb_eq, X. apply in_seq. lia.
Qed.
Definition placed (g : nat) (v : list bool) : list bool := repeat false (4 * g) ++ v ++ repeat false (28 - 4 * g).
Lemma sp_table : forall g x, g < 8 -> x < 64 ->
  map (fun i => Z.testbit (nth x (nth g Spbox []) 0%Z) (Z.of_nat i)) (seq 0 32)
  = map (fun i => nth ((32 - i) mod 32) (select P_table (placed g (S_box g (six (Z.of_nat x))))) false) (seq 0 32)
  /\ word 32 (nth x (nth g Spbox []) 0%Z).
Proof.
  assert (X : forallb (fun g => forallb (fun x => let w := nth x (nth g Spbox []) 0%Z in let b := select P_table (placed g (S_box g (six (Z.of_nat x)))) in
      forallb (fun i => Bool.eqb (Z.testbit w (Z.of_nat i)) (nth ((32 - i) mod 32) b false)) (seq 0 32) && (0 <=? w)%Z && (w <? 2 ^ 32)%Z) (seq 0 64)) (seq 0 8) = true)
    by (vm_compute; reflexivity).
  intros g x Hg Hx. rewrite forallb_forall in X. specialize (X g ltac:(apply in_seq; lia)). rewrite forallb_forall in X.
  specialize (X x ltac:(apply in_seq; lia)). cbv zeta in X. apply andb_prop in X as [X X3]. apply andb_prop in X as [X1 X2].
  split; [|unfold word; lia]. apply map_ext_in. intros i Hi. rewrite forallb_forall in X1. apply Bool.eqb_prop, X1, Hi.
Qed.

Lemma group_six : forall X g z, length X = 48 -> g < 8 -> (forall l, l < 6 -> Z.testbit z (Z.of_nat (5 - l)) = nth (6 * g + l) X false) ->
  six z = firstn 6 (skipn (6 * g) X).
Proof.
  intros X g z HL Hg H. apply list_ext.
  - unfold six. rewrite map_length, seq_length, firstn_length, skipn_length. lia.
  - unfold six. rewrite map_length, seq_length. intros i Hi. rewrite nth_map_seq by exact Hi. rewrite H by exact Hi.
    assert (E : nth (6 * g + i) X false = nth i (skipn (6 * g) X) false).
    { rewrite <- (firstn_skipn (6 * g) X) at 1. rewrite app_nth2 by (rewrite firstn_length; lia). f_equal. rewrite firstn_length. lia. }
    rewrite E. transitivity (nth i (firstn 6 (skipn (6 * g) X) ++ skipn 6 (skipn (6 * g) X)) false); [rewrite firstn_skipn; reflexivity|].
    apply app_nth1. rewrite firstn_length, skipn_length. lia.
Qed.

Lemma sp_bit : forall g w X i, g < 8 -> length X = 48 -> i < 32 ->
  (forall l, l < 6 -> Z.testbit w (Z.of_nat (5 - l)) = nth (6 * g + l) X false) ->
  word 32 (sp g w) /\
  Z.testbit (sp g w) (Z.of_nat i) = nth (nth ((32 - i) mod 32) P_table 0 - 1) (placed g (S_box g (firstn 6 (skipn (6 * g) X)))) false.
Proof.
  intros g w X i Hg HL Hi H. unfold sp.
  assert (B64 : (0 <= Z.land w 0x3f < 64)%Z) by (change 0x3f%Z with (Z.ones 6); rewrite Z.land_ones by lia; apply Z.mod_pos_bound; lia).
  assert (LT : forall l, l < 6 -> Z.testbit (Z.land w 0x3f) (Z.of_nat (5 - l)) = nth (6 * g + l) X false).
  { intros l Hl. rewrite <- H by exact Hl. change 0x3f%Z with (Z.ones 6). rewrite Z.land_ones by lia. apply Z.mod_pow2_bits_low. lia. }
  destruct (sp_table g (Z.to_nat (Z.land w 0x3f)) Hg ltac:(lia)) as [T1 T2]. split; [exact T2|].
  apply (f_equal (fun l => nth i l false)) in T1. rewrite !nth_map_seq in T1 by exact Hi. rewrite T1.
  rewrite Z2Nat.id by lia. rewrite (group_six X g _ HL Hg LT). apply select_nth. apply Nat.mod_upper_bound. discriminate.
Qed.

Lemma placed_xor : forall (v : nat -> list bool) q, (forall g, length (v g) = 4) -> q < 32 ->
  nth q (flat_map v (seq 0 8)) false
  = xorb (xorb (xorb (xorb (nth q (placed 6 (v 6)) false) (nth q (placed 4 (v 4)) false)) (nth q (placed 2 (v 2)) false)) (nth q (placed 0 (v 0)) false))
         (xorb (xorb (xorb (nth q (placed 7 (v 7)) false) (nth q (placed 5 (v 5)) false)) (nth q (placed 3 (v 3)) false)) (nth q (placed 1 (v 1)) false)).
Proof.
  intros v q H Hq. cbn [flat_map seq].
  assert (X : forall l : list bool, length l = 4 -> exists a b c d, l = [a; b; c; d]) by (intros [|a [|b [|c [|d [|? ?]]]]] Hl; try discriminate; eauto).
  destruct (X _ (H 0)) as (a0 & b0 & c0 & d0 & ->). destruct (X _ (H 1)) as (a1 & b1 & c1 & d1 & ->).
  destruct (X _ (H 2)) as (a2 & b2 & c2 & d2 & ->). destruct (X _ (H 3)) as (a3 & b3 & c3 & d3 & ->).
  destruct (X _ (H 4)) as (a4 & b4 & c4 & d4 & ->). destruct (X _ (H 5)) as (a5 & b5 & c5 & d5 & ->).
  destruct (X _ (H 6)) as (a6 & b6 & c6 & d6 & ->). destruct (X _ (H 7)) as (a7 & b7 & c7 & d7 & ->).
  do 32 (destruct q as [|q]; [cbv [placed repeat Nat.mul Nat.add Nat.sub app nth]; rewrite ?xorb_false_r, ?xorb_false_l; reflexivity|]). lia.
Qed.
Lemma S_box_length : forall i b, length (S_box i b) = 4.
Proof. intros. unfold S_box, four_bits. rewrite map_length, seq_length. reflexivity. Qed.
Lemma f_length : forall R K, length (f R K) = 32.
Proof. intros. unfold f. apply select_length. Qed.

Lemma route_bit : forall x L p, shows x L -> p < 32 -> Z.testbit x (Z.of_nat p) = nth ((32 - p) mod 32) L false.
Proof. intros x L p [_ [_ H]] Hp. rewrite H by exact Hp. unfold rot1. rewrite nth_map_seq by exact Hp. reflexivity. Qed.

Lemma E_nth : forall g l, g < 8 -> l < 6 -> nth (6 * g + l) E_table 0 - 1 = (4 * g + 31 + l) mod 32.
Proof.
  intros g l Hg Hl. assert (X : forallb (fun g => forallb (fun l => nth (6 * g + l) E_table 0 - 1 =? (4 * g + 31 + l) mod 32) (seq 0 6)) (seq 0 8) = true) by (vm_compute; reflexivity).
  rewrite forallb_forall in X. specialize (X g ltac:(apply in_seq; lia)). rewrite forallb_forall in X. apply Nat.eqb_eq, X, in_seq. lia.
Qed.

Lemma half_ok : forall x y k R L K, shows x R -> shows y L -> key_shows k K -> shows (half x k y) (xor_bits L (f R K)).
Proof.
  intros x y k R L K HR HY (LK & K1 & K2 & HK). pose proof HR as [LR [WX _]]. pose proof HY as [LL [WY _]].
  split; [rewrite xor_length; [exact LL|rewrite f_length; exact LL]|].
  set (X := xor_bits (select E_table R) K).
  assert (LX : length X = 48) by (unfold X; rewrite xor_length; rewrite select_length; [reflexivity|rewrite LK; reflexivity]).
  assert (XN : forall g l, g < 8 -> l < 6 -> nth (6 * g + l) X false = xorb (nth ((4 * g + 31 + l) mod 32) R false) (nth (6 * g + l) K false)).
  { intros g l Hg Hl. unfold X. assert (LE : length E_table = 48) by reflexivity.
    rewrite xor_nth by (rewrite select_length; lia). rewrite select_nth by lia. rewrite E_nth by assumption. reflexivity. }
  assert (EV : forall h l, h < 4 -> l < 6 -> Z.testbit (Z.shiftr (Z.lxor (rotr 32 x 4) (fst k)) (Z.of_nat (24 - 8 * h))) (Z.of_nat (5 - l)) = nth (6 * (2 * h) + l) X false).
  { intros h l Hh Hl. rewrite Z.shiftr_spec by lia. replace (Z.of_nat (5 - l) + Z.of_nat (24 - 8 * h))%Z with (Z.of_nat (24 - 8 * h + (5 - l))) by lia.
    rewrite Z.lxor_spec. rewrite (proj1 (HK h (5 - l) Hh ltac:(lia))). replace (5 - (5 - l)) with l by lia. rewrite XN by lia. f_equal.
    rewrite rotr_rotl_opp, (rotl_bit 32 ltac:(lia) mask32) by (auto; lia).
    replace ((Z.of_nat (24 - 8 * h + (5 - l)) - Z.opp 4) mod 32)%Z with (Z.of_nat ((24 - 8 * h + (5 - l) + 4) mod 32)) by (rewrite Nat2Z.inj_mod; change (Z.of_nat 32) with 32%Z; f_equal; lia).
    rewrite (route_bit x R) by (auto; apply Nat.mod_upper_bound; lia). f_equal.
    do 4 (destruct h as [|h]; [do 6 (destruct l as [|l]; [reflexivity|]); lia|]). lia. }
  assert (OD : forall h l, h < 4 -> l < 6 -> Z.testbit (Z.shiftr (Z.lxor x (snd k)) (Z.of_nat (24 - 8 * h))) (Z.of_nat (5 - l)) = nth (6 * (2 * h + 1) + l) X false).
  { intros h l Hh Hl. rewrite Z.shiftr_spec by lia. replace (Z.of_nat (5 - l) + Z.of_nat (24 - 8 * h))%Z with (Z.of_nat (24 - 8 * h + (5 - l))) by lia.
    rewrite Z.lxor_spec. rewrite (proj2 (HK h (5 - l) Hh ltac:(lia))). replace (5 - (5 - l)) with l by lia. rewrite XN by lia. f_equal.
    rewrite (route_bit x R) by (auto; lia). f_equal.
    do 4 (destruct h as [|h]; [do 6 (destruct l as [|l]; [reflexivity|]); lia|]). lia. }
  assert (G0 : forall l, l < 6 -> Z.testbit (Z.lxor (rotr 32 x 4) (fst k)) (Z.of_nat (5 - l)) = nth (6 * 6 + l) X false).
  { intros l Hl. pose proof (EV 3 l ltac:(lia) Hl) as E. change (Z.of_nat (24 - 8 * 3)) with 0%Z in E. rewrite Z.shiftr_0_r in E. exact E. }
  assert (G1 : forall l, l < 6 -> Z.testbit (Z.lxor x (snd k)) (Z.of_nat (5 - l)) = nth (6 * 7 + l) X false).
  { intros l Hl. pose proof (OD 3 l ltac:(lia) Hl) as E. change (Z.of_nat (24 - 8 * 3)) with 0%Z in E. rewrite Z.shiftr_0_r in E. exact E. }
  unfold half. cbv zeta. set (we := Z.lxor (rotr 32 x 4) (fst k)) in *. set (wo := Z.lxor x (snd k)) in *.
  assert (B : forall i, i < 32 ->
     (word 32 (sp 6 we) /\ word 32 (sp 4 (Z.shiftr we 8)) /\ word 32 (sp 2 (Z.shiftr we 16)) /\ word 32 (sp 0 (Z.shiftr we 24))
      /\ word 32 (sp 7 wo) /\ word 32 (sp 5 (Z.shiftr wo 8)) /\ word 32 (sp 3 (Z.shiftr wo 16)) /\ word 32 (sp 1 (Z.shiftr wo 24)))
     /\ xorb (xorb (xorb (xorb (Z.testbit (sp 6 we) (Z.of_nat i)) (Z.testbit (sp 4 (Z.shiftr we 8)) (Z.of_nat i))) (Z.testbit (sp 2 (Z.shiftr we 16)) (Z.of_nat i))) (Z.testbit (sp 0 (Z.shiftr we 24)) (Z.of_nat i)))
             (xorb (xorb (xorb (Z.testbit (sp 7 wo) (Z.of_nat i)) (Z.testbit (sp 5 (Z.shiftr wo 8)) (Z.of_nat i))) (Z.testbit (sp 3 (Z.shiftr wo 16)) (Z.of_nat i))) (Z.testbit (sp 1 (Z.shiftr wo 24)) (Z.of_nat i)))
        = nth ((32 - i) mod 32) (f R K) false).
  { intros i Hi.
    destruct (sp_bit 6 we X i ltac:(lia) LX Hi G0) as [W6 ->].
    destruct (sp_bit 4 (Z.shiftr we 8) X i ltac:(lia) LX Hi (fun l => EV 2 l ltac:(lia))) as [W4 ->].
    destruct (sp_bit 2 (Z.shiftr we 16) X i ltac:(lia) LX Hi (fun l => EV 1 l ltac:(lia))) as [W2 ->].
    destruct (sp_bit 0 (Z.shiftr we 24) X i ltac:(lia) LX Hi (fun l => EV 0 l ltac:(lia))) as [W0 ->].
    destruct (sp_bit 7 wo X i ltac:(lia) LX Hi G1) as [W7 ->].
    destruct (sp_bit 5 (Z.shiftr wo 8) X i ltac:(lia) LX Hi (fun l => OD 2 l ltac:(lia))) as [W5 ->].
    destruct (sp_bit 3 (Z.shiftr wo 16) X i ltac:(lia) LX Hi (fun l => OD 1 l ltac:(lia))) as [W3 ->].
    destruct (sp_bit 1 (Z.shiftr wo 24) X i ltac:(lia) LX Hi (fun l => OD 0 l ltac:(lia))) as [W1 ->].
    split; [auto 10|]. unfold f. fold X. rewrite select_nth by (apply Nat.mod_upper_bound; discriminate).
    assert (Q : nth ((32 - i) mod 32) P_table 0 - 1 < 32).
    { assert (PB : forallb (fun p => p - 1 <? 32) P_table = true) by reflexivity. rewrite forallb_forall in PB.
      apply Nat.ltb_lt, PB, nth_In. apply Nat.mod_upper_bound. discriminate. }
    symmetry. apply (placed_xor (fun g => S_box g (firstn 6 (skipn (6 * g) X))) _ (fun g => S_box_length _ _) Q). }
  destruct (B 0 ltac:(lia)) as [(W6 & W4 & W2 & W0 & W7 & W5 & W3 & W1) _].
  split; [repeat (apply lxor32; try assumption)|]. intros i Hi. unfold rot1. rewrite nth_map_seq by exact Hi.
  cbn [Nat.add]. rewrite xor_nth by (rewrite ?f_length, ?LL; auto; apply Nat.mod_upper_bound; lia).
  rewrite <- (proj2 (B i Hi)). rewrite !Z.lxor_spec. rewrite (route_bit y L i HY Hi). rewrite !xorb_assoc. reflexivity.
Qed.
