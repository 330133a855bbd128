(** Base: shared vocabulary (bytes, list update, bit strings) and basic lemmas.
    Nothing here models a particular piece of the library. *)
From Coq Require Import ZArith List Lia Bool Arith.
Import ListNotations.
Local Open Scope Z_scope.

(** A byte is an integer in [0,256). *)
Definition byte (b : Z) : Prop := 0 <= b < 256.
Definition bytes (l : list Z) : Prop := Forall byte l.

(** A [w]-bit machine word. *)
Definition word (w : Z) (x : Z) : Prop := 0 <= x < 2 ^ w.

(** Replace position [n] of a list (array store). *)
Fixpoint upd {A} (n : nat) (x : A) (l : list A) : list A :=
  match l, n with
  | [], _ => []
  | _ :: t, O => x :: t
  | h :: t, S m => h :: upd m x t
  end.

(** The [n] low bits of [v], most significant first. *)
Fixpoint bits (n : nat) (v : Z) : list bool :=
  match n with
  | O => []
  | S m => Z.testbit v (Z.of_nat m) :: bits m v
  end.

(** Value of a bit list, most significant first. *)
Fixpoint bitsval (l : list bool) : Z :=
  match l with
  | [] => 0
  | b :: t => (if b then 2 ^ Z.of_nat (length t) else 0) + bitsval t
  end.

(** Pointwise exclusive or of two byte strings (length of the shorter). *)
Fixpoint xorl (a b : list Z) : list Z :=
  match a, b with
  | x :: a', y :: b' => Z.lxor x y :: xorl a' b'
  | _, _ => []
  end.

(** Big-endian and little-endian value of a byte string. *)
Fixpoint le_val (l : list Z) : Z :=
  match l with
  | [] => 0
  | b :: t => b + 256 * le_val t
  end.

Definition be_val (l : list Z) : Z := fold_left (fun a b => 256 * a + b) l 0.

(** [n] byte little-endian and big-endian encodings. *)
Fixpoint le_bytes (n : nat) (v : Z) : list Z :=
  match n with
  | O => []
  | S m => v mod 256 :: le_bytes m (v / 256)
  end.

Definition be_bytes (n : nat) (v : Z) : list Z := rev (le_bytes n v).

(* ------------------------------------------------------------------ *)

Section ListLemmas.
  Context {A : Type}.
  Implicit Types l : list A.

  Lemma upd_length : forall n (x : A) l, length (upd n x l) = length l.
  Proof. induction n; destruct l; simpl; auto. Qed.

  Lemma upd_nth_eq : forall n (x d : A) l, (n < length l)%nat -> nth n (upd n x l) d = x.
  Proof. induction n; destruct l; simpl; intros; try lia; auto. apply IHn; lia. Qed.

  Lemma upd_nth_neq : forall n m (x d : A) l, n <> m -> nth m (upd n x l) d = nth m l d.
  Proof.
    induction n; destruct l, m; simpl; intros; try lia; auto;
    try (apply IHn; lia).
  Qed.

  Lemma upd_firstn : forall n m (x : A) l, (m <= n)%nat -> firstn m (upd n x l) = firstn m l.
  Proof.
    induction n; destruct l, m; simpl; intros; try lia; auto;
    f_equal; apply IHn; lia.
  Qed.

  Lemma upd_skipn : forall n m (x : A) l, (n < m)%nat -> skipn m (upd n x l) = skipn m l.
  Proof.
    induction n; destruct l, m; simpl; intros; try lia; auto;
    try (apply IHn; lia).
  Qed.

  Lemma upd_split : forall n (x : A) l, (n < length l)%nat ->
    upd n x l = firstn n l ++ x :: skipn (S n) l.
  Proof.
    induction n; destruct l; simpl; intros; try lia; auto.
    f_equal. rewrite IHn by lia. reflexivity.
  Qed.

  Lemma upd_Forall : forall (P : A -> Prop) n x l, Forall P l -> P x -> Forall P (upd n x l).
  Proof.
    induction n; destruct l; simpl; intros H Hx; auto; inversion H; subst; constructor; auto.
  Qed.

  Lemma nth_split_at : forall n (d : A) l, (n < length l)%nat ->
    l = firstn n l ++ nth n l d :: skipn (S n) l.
  Proof.
    induction n; destruct l; simpl; intros; try lia; auto;
    f_equal; apply IHn; lia.
  Qed.

  Lemma firstn_S_nth : forall n (d : A) l, (n < length l)%nat ->
    firstn (S n) l = firstn n l ++ [nth n l d].
  Proof.
    induction n; destruct l; simpl; intros; try lia; auto.
    f_equal. rewrite <- IHn by lia. reflexivity.
  Qed.

  Lemma nth_ext_eq : forall l l' (d : A), length l = length l' ->
    (forall i, (i < length l)%nat -> nth i l d = nth i l' d) -> l = l'.
  Proof.
    intros. apply nth_ext with (d := d) (d' := d); auto.
  Qed.

  Lemma firstn_app_exact : forall l l', firstn (length l) (l ++ l') = l.
  Proof. intros. rewrite firstn_app, Nat.sub_diag, firstn_all. simpl. apply app_nil_r. Qed.

  Lemma skipn_app_exact : forall l l', skipn (length l) (l ++ l') = l'.
  Proof. intros. rewrite skipn_app, Nat.sub_diag, skipn_all. reflexivity. Qed.

  Lemma firstn_app_le : forall n l l', (n <= length l)%nat -> firstn n (l ++ l') = firstn n l.
  Proof.
    intros. rewrite firstn_app. replace (n - length l)%nat with O by lia.
    simpl. apply app_nil_r.
  Qed.

  Lemma firstn_app_ge : forall n l l', (length l <= n)%nat ->
    firstn n (l ++ l') = l ++ firstn (n - length l) l'.
  Proof. intros. rewrite firstn_app, firstn_all2 by lia. reflexivity. Qed.

  Lemma skipn_app_le : forall n l l', (n <= length l)%nat -> skipn n (l ++ l') = skipn n l ++ l'.
  Proof.
    intros. rewrite skipn_app. replace (n - length l)%nat with O by lia. reflexivity.
  Qed.

  Lemma skipn_app_ge : forall n l l', (length l <= n)%nat ->
    skipn n (l ++ l') = skipn (n - length l) l'.
  Proof. intros. rewrite skipn_app, skipn_all2 by lia. reflexivity. Qed.

  Lemma skipn_skipn_add : forall a b l, skipn a (skipn b l) = skipn (a + b) l.
  Proof.
    intros a b; revert a. induction b; intros; simpl.
    - rewrite Nat.add_0_r; reflexivity.
    - rewrite Nat.add_succ_r. destruct l; simpl; auto. apply skipn_nil.
  Qed.

  Lemma firstn_length_le' : forall n l, (n <= length l)%nat -> length (firstn n l) = n.
  Proof. intros. rewrite firstn_length. lia. Qed.

  Lemma firstn_add : forall a b l, firstn (a + b) l = firstn a l ++ firstn b (skipn a l).
  Proof.
    induction a; simpl; intros; auto. destruct l; simpl.
    - rewrite firstn_nil; reflexivity.
    - f_equal. apply IHa.
  Qed.

  Lemma nth_skipn_add : forall n i l (d : A), nth i (skipn n l) d = nth (n + i) l d.
  Proof.
    induction n; simpl; intros; auto. destruct l; simpl; auto. destruct i; reflexivity.
  Qed.

  Lemma nth_firstn_lt : forall n i l (d : A), (i < n)%nat -> nth i (firstn n l) d = nth i l d.
  Proof.
    induction n; intros; try lia. destruct l; simpl; auto. destruct i; auto. apply IHn; lia.
  Qed.

  Lemma Forall_firstn : forall (P : A -> Prop) n l, Forall P l -> Forall P (firstn n l).
  Proof. induction n; simpl; intros; auto. destruct l; auto. inversion H; auto. Qed.

  Lemma Forall_skipn : forall (P : A -> Prop) n l, Forall P l -> Forall P (skipn n l).
  Proof. induction n; simpl; intros; auto. destruct l; auto. inversion H; auto. Qed.

  Lemma repeat_app_add : forall (x : A) a b, repeat x (a + b) = repeat x a ++ repeat x b.
  Proof. intros. apply repeat_app. Qed.

  Lemma nth_repeat_lt : forall (x d : A) n i, (i < n)%nat -> nth i (repeat x n) d = x.
  Proof. induction n; intros; try lia. destruct i; simpl; auto. apply IHn; lia. Qed.

  Lemma firstn_repeat : forall (x : A) n m, firstn m (repeat x n) = repeat x (Nat.min m n).
  Proof. induction n; destruct m; simpl; intros; auto. f_equal; auto. Qed.

  Lemma skipn_repeat : forall (x : A) n m, skipn m (repeat x n) = repeat x (n - m).
  Proof. induction n; destruct m; simpl; intros; auto. Qed.

  Lemma Forall_repeat : forall (P : A -> Prop) x n, P x -> Forall P (repeat x n).
  Proof. induction n; simpl; auto. Qed.

  Lemma app_inj_length : forall (a b c d : list A), length a = length b ->
    a ++ c = b ++ d -> a = b /\ c = d.
  Proof.
    induction a; destruct b; simpl; intros; try lia; auto.
    inversion H0; subst. destruct (IHa b c d); auto. subst; auto.
  Qed.
End ListLemmas.

(* ------------------------------------------------------------------ *)
(** Bit lists *)

Lemma bits_length : forall n v, length (bits n v) = n.
Proof. induction n; simpl; auto. Qed.

Lemma bits_nth : forall n v i d, (i < n)%nat ->
  nth i (bits n v) d = Z.testbit v (Z.of_nat (n - 1 - i)).
Proof.
  induction n; intros; try lia. simpl. destruct i.
  - f_equal. lia.
  - rewrite IHn by lia. f_equal. lia.
Qed.

Lemma bitsval_nonneg : forall l, 0 <= bitsval l.
Proof.
  induction l; simpl; try lia.
  pose proof (Z.pow_nonneg 2 (Z.of_nat (length l))). destruct a; lia.
Qed.

Lemma bitsval_bound : forall l, bitsval l < 2 ^ Z.of_nat (length l).
Proof.
  induction l; cbn [length].
  - simpl; lia.
  - rewrite Nat2Z.inj_succ, Z.pow_succ_r by lia.
    pose proof (Z.pow_nonneg 2 (Z.of_nat (length l))).
    cbn [bitsval]. destruct a; lia.
Qed.

Lemma bits_bitsval : forall l, bits (length l) (bitsval l) = l.
Proof.
  induction l; simpl; auto.
  pose proof (bitsval_bound l). pose proof (bitsval_nonneg l).
  assert (Hs : forall i, (i < length l)%nat ->
    Z.testbit ((if a then 2 ^ Z.of_nat (length l) else 0) + bitsval l) (Z.of_nat i)
    = Z.testbit (bitsval l) (Z.of_nat i)).
  { intros. destruct a; [|rewrite Z.add_0_l; reflexivity].
    rewrite <- (Z.mod_pow2_bits_low _ (Z.of_nat (length l))) by lia.
    replace (2 ^ Z.of_nat (length l) + bitsval l)
      with (bitsval l + 1 * 2 ^ Z.of_nat (length l)) by lia.
    rewrite Z_mod_plus_full. rewrite Z.mod_pow2_bits_low by lia. reflexivity. }
  f_equal.
  - destruct a.
    + rewrite Z.testbit_true by lia.
      replace (2 ^ Z.of_nat (length l) + bitsval l)
        with (bitsval l + 1 * 2 ^ Z.of_nat (length l)) by lia.
      rewrite Z_div_plus_full by lia. rewrite Z.div_small by lia. reflexivity.
    + rewrite Z.add_0_l. rewrite Z.testbit_false by lia.
      rewrite Z.div_small by lia. reflexivity.
  - transitivity (bits (length l) (bitsval l)); auto.
    apply nth_ext_eq with (d := false).
    + rewrite !bits_length; auto.
    + intros i Hi. rewrite bits_length in Hi. rewrite !bits_nth by lia. apply Hs. lia.
Qed.

Lemma bits_ext : forall n a b,
  (forall i, (i < n)%nat -> Z.testbit a (Z.of_nat i) = Z.testbit b (Z.of_nat i)) ->
  bits n a = bits n b.
Proof.
  induction n; simpl; intros; auto. f_equal; auto.
Qed.

Lemma bits_mod : forall n v, bits n (v mod 2 ^ Z.of_nat n) = bits n v.
Proof. intros. apply bits_ext. intros. apply Z.mod_pow2_bits_low. lia. Qed.

Lemma bitsval_bits_mod : forall n v, bitsval (bits n v) = v mod 2 ^ Z.of_nat n.
Proof.
  induction n; intros.
  - simpl. rewrite Z.mod_1_r. reflexivity.
  - simpl bits. cbn [bitsval]. rewrite bits_length, IHn.
    rewrite Nat2Z.inj_succ, Z.pow_succ_r by lia.
    rewrite (Z.mul_comm 2). rewrite Z.rem_mul_r; try lia; try (apply Z.pow_nonzero; lia).
    rewrite Z.testbit_eqb by lia.
    destruct (Z.eqb_spec ((v / 2 ^ Z.of_nat n) mod 2) 1) as [E|E].
    + rewrite E. lia.
    + pose proof (Z.mod_pos_bound (v / 2 ^ Z.of_nat n) 2). assert ((v / 2 ^ Z.of_nat n) mod 2 = 0) by lia.
      rewrite H0. lia.
Qed.

Lemma bitsval_bits : forall n v, 0 <= v < 2 ^ Z.of_nat n -> bitsval (bits n v) = v.
Proof. intros. rewrite bitsval_bits_mod. apply Z.mod_small; auto. Qed.

Lemma bits_inj : forall n a b, 0 <= a < 2 ^ Z.of_nat n -> 0 <= b < 2 ^ Z.of_nat n ->
  bits n a = bits n b -> a = b.
Proof. intros. rewrite <- (bitsval_bits n a), <- (bitsval_bits n b); congruence. Qed.

Lemma bits_zero : forall n, bits n 0 = repeat false n.
Proof. induction n; simpl; auto. rewrite Z.testbit_0_l. f_equal; auto. Qed.

(* ------------------------------------------------------------------ *)
(** xor of byte strings *)

Lemma xorl_length : forall a b, length (xorl a b) = Nat.min (length a) (length b).
Proof. induction a; destruct b; simpl; auto. Qed.

Lemma xorl_comm : forall a b, xorl a b = xorl b a.
Proof. induction a; destruct b; simpl; auto. rewrite Z.lxor_comm, IHa. reflexivity. Qed.

Lemma xorl_cancel : forall a b, (length a <= length b)%nat -> xorl (xorl a b) b = a.
Proof.
  induction a; destruct b; simpl; intros; try lia; auto.
  rewrite Z.lxor_assoc, Z.lxor_nilpotent, Z.lxor_0_r, IHa by lia. reflexivity.
Qed.

Lemma xorl_app : forall a a' b b', length a = length b ->
  xorl (a ++ a') (b ++ b') = xorl a b ++ xorl a' b'.
Proof.
  induction a; destruct b; simpl; intros; try lia; auto. f_equal. apply IHa; lia.
Qed.

Lemma xorl_nil_r : forall a, xorl a [] = [].
Proof. destruct a; reflexivity. Qed.

Lemma xorl_firstn : forall n a b, firstn n (xorl a b) = xorl (firstn n a) (firstn n b).
Proof.
  induction n; simpl; intros; auto. destruct a, b; simpl; auto. f_equal; auto.
Qed.

Lemma xorl_skipn : forall n a b, skipn n (xorl a b) = xorl (skipn n a) (skipn n b).
Proof.
  induction n; simpl; intros; auto. destruct a as [|x a], b as [|y b]; simpl; auto.
  rewrite xorl_nil_r; reflexivity.
Qed.

Lemma xorl_trim : forall a b, xorl a b = xorl a (firstn (length a) b).
Proof. induction a; destruct b; simpl; auto. f_equal; auto. Qed.

Lemma xorl_repeat0 : forall a n, (length a <= n)%nat -> xorl a (repeat 0 n) = a.
Proof.
  induction a; simpl; intros; auto. destruct n; simpl; try lia.
  rewrite Z.lxor_0_r, IHa by lia. reflexivity.
Qed.

Lemma lxor_byte : forall a b, byte a -> byte b -> byte (Z.lxor a b).
Proof.
  unfold byte. intros a b Ha Hb. split.
  - apply Z.lxor_nonneg. lia.
  - destruct (Z.eq_dec (Z.lxor a b) 0) as [E|E]; [rewrite E; lia|].
    assert (0 < Z.lxor a b) by (pose proof (proj2 (Z.lxor_nonneg a b)); lia).
    change 256 with (2 ^ 8). apply Z.log2_lt_pow2; auto.
    pose proof (Z.log2_lxor a b).
    assert (Z.log2 a < 8) by (destruct (Z.eq_dec a 0); [subst; simpl; lia | apply Z.log2_lt_pow2; lia]).
    assert (Z.log2 b < 8) by (destruct (Z.eq_dec b 0); [subst; simpl; lia | apply Z.log2_lt_pow2; lia]).
    lia.
Qed.

Lemma xorl_bytes : forall a b, bytes a -> bytes b -> bytes (xorl a b).
Proof.
  induction a; destruct b; simpl; intros Ha Hb; constructor; inversion Ha; inversion Hb; subst.
  - apply lxor_byte; auto.
  - apply IHa; auto.
Qed.

(* ------------------------------------------------------------------ *)
(** Byte strings as numbers *)

Lemma le_bytes_length : forall n v, length (le_bytes n v) = n.
Proof. induction n; simpl; auto. Qed.

Lemma le_bytes_bytes : forall n v, bytes (le_bytes n v).
Proof.
  induction n; simpl; constructor; auto. unfold byte. apply Z.mod_pos_bound; lia. apply IHn.
Qed.

Lemma be_bytes_length : forall n v, length (be_bytes n v) = n.
Proof. intros. unfold be_bytes. rewrite rev_length, le_bytes_length. reflexivity. Qed.

Lemma be_bytes_bytes : forall n v, bytes (be_bytes n v).
Proof. intros. unfold be_bytes, bytes. apply Forall_rev. apply le_bytes_bytes. Qed.

Lemma pow256_succ : forall n, 256 ^ Z.of_nat (S n) = 256 * 256 ^ Z.of_nat n.
Proof. intros. rewrite Nat2Z.inj_succ, Z.pow_succ_r by lia. reflexivity. Qed.

Lemma le_val_bytes_mod : forall n v, le_val (le_bytes n v) = v mod 256 ^ Z.of_nat n.
Proof.
  induction n; intros.
  - simpl. rewrite Z.mod_1_r; reflexivity.
  - cbn [le_bytes le_val]. rewrite IHn, pow256_succ.
    rewrite Z.rem_mul_r; try lia; try (apply Z.pow_pos_nonneg; lia). 
Qed.

Lemma le_val_bounds : forall l, bytes l -> 0 <= le_val l < 256 ^ Z.of_nat (length l).
Proof.
  induction l; intros H.
  - simpl; lia.
  - inversion H; subst. specialize (IHl H3). cbn [le_val length]. rewrite pow256_succ.
    unfold byte in H2. lia.
Qed.

Lemma le_bytes_val : forall l, bytes l -> le_bytes (length l) (le_val l) = l.
Proof.
  induction l; intros H; cbn [le_bytes le_val length]; auto. inversion H; subst. unfold byte in H2.
  replace (a + 256 * le_val l) with (a + le_val l * 256) by lia.
  rewrite Z_mod_plus_full, Z.mod_small, Z_div_plus_full, Z.div_small, Z.add_0_l by lia.
  rewrite IHl; auto.
Qed.

Lemma be_val_rev : forall l, be_val l = le_val (rev l).
Proof.
  intros. unfold be_val. rewrite <- fold_left_rev_right. 
  induction (rev l); auto. cbn [fold_right le_val]. rewrite IHl0. lia.
Qed.

Lemma be_val_app : forall a b, be_val (a ++ b) = be_val a * 256 ^ Z.of_nat (length b) + be_val b.
Proof.
  intros. unfold be_val. rewrite fold_left_app.
  generalize (fold_left (fun a0 b0 => 256 * a0 + b0) a 0).
  intros z. assert (G : forall b x, fold_left (fun a0 b0 => 256 * a0 + b0) b x
     = x * 256 ^ Z.of_nat (length b) + fold_left (fun a0 b0 => 256 * a0 + b0) b 0).
  { clear. induction b; intros; cbn [fold_left length].
    - simpl; lia.
    - rewrite IHb, (IHb (256 * 0 + a)), pow256_succ. lia. }
  apply G.
Qed.

Lemma be_val_bounds : forall l, bytes l -> 0 <= be_val l < 256 ^ Z.of_nat (length l).
Proof.
  intros. rewrite be_val_rev, <- (rev_length l). apply le_val_bounds.
  apply Forall_rev; auto.
Qed.

Lemma be_val_bytes_mod : forall n v, be_val (be_bytes n v) = v mod 256 ^ Z.of_nat n.
Proof. intros. rewrite be_val_rev. unfold be_bytes. rewrite rev_involutive. apply le_val_bytes_mod. Qed.

Lemma be_val_be_bytes : forall n v, 0 <= v < 256 ^ Z.of_nat n -> be_val (be_bytes n v) = v.
Proof. intros. rewrite be_val_bytes_mod. apply Z.mod_small; auto. Qed.

Lemma be_bytes_val : forall l, bytes l -> be_bytes (length l) (be_val l) = l.
Proof.
  intros. unfold be_bytes. rewrite be_val_rev, <- (rev_length l).
  rewrite le_bytes_val by (apply Forall_rev; auto). apply rev_involutive.
Qed.

Lemma be_val_inj : forall a b, bytes a -> bytes b -> length a = length b -> be_val a = be_val b -> a = b.
Proof.
  intros. rewrite <- (be_bytes_val a), <- (be_bytes_val b) by auto. congruence.
Qed.

Lemma le_val_inj : forall a b, bytes a -> bytes b -> length a = length b -> le_val a = le_val b -> a = b.
Proof.
  intros. rewrite <- (le_bytes_val a), <- (le_bytes_val b) by auto. congruence.
Qed.

Lemma le_val_app : forall a b, le_val (a ++ b) = le_val a + 256 ^ Z.of_nat (length a) * le_val b.
Proof.
  induction a; intros; cbn [app le_val length].
  - change (Z.of_nat 0) with 0. rewrite Z.pow_0_r. lia.
  - rewrite IHa, pow256_succ. lia.
Qed.

Lemma le_bytes_app : forall a b v,
  le_bytes (a + b) v = le_bytes a v ++ le_bytes b (v / 256 ^ Z.of_nat a).
Proof.
  induction a; intros.
  - simpl. rewrite Z.div_1_r. reflexivity.
  - cbn [Nat.add le_bytes app]. f_equal. rewrite IHa. f_equal. f_equal.
    rewrite pow256_succ, Z.div_div; try lia; try (apply Z.pow_pos_nonneg; lia).
Qed.

Lemma bytes_app : forall a b, bytes (a ++ b) <-> bytes a /\ bytes b.
Proof. intros. apply Forall_app. Qed.

Lemma bytes_firstn : forall n l, bytes l -> bytes (firstn n l).
Proof. intros. apply Forall_firstn; auto. Qed.

Lemma bytes_skipn : forall n l, bytes l -> bytes (skipn n l).
Proof. intros. apply Forall_skipn; auto. Qed.

Lemma bytes_repeat0 : forall n, bytes (repeat 0 n).
Proof. intros. apply Forall_repeat. unfold byte; lia. Qed.

(* ------------------------------------------------------------------ *)
(** Ranges of bitwise operations *)

Lemma below_pow2_bits : forall n a, 0 <= n -> 0 <= a ->
  (forall k, n <= k -> Z.testbit a k = false) -> a < 2 ^ n.
Proof.
  intros n a Hn Ha H.
  destruct (Z.eq_dec a 0) as [->|E]; [apply Z.pow_pos_nonneg; lia|].
  apply Z.log2_lt_pow2; try lia.
  destruct (Z.lt_ge_cases (Z.log2 a) n); auto.
  specialize (H (Z.log2 a) H0). rewrite Z.bit_log2 in H by lia. discriminate.
Qed.

Lemma testbit_above : forall n a k, 0 <= n -> 0 <= a < 2 ^ n -> n <= k -> Z.testbit a k = false.
Proof.
  intros n a k Hn Ha Hk. destruct (Z.eq_dec a 0) as [->|E]; [apply Z.testbit_0_l|].
  apply Z.bits_above_log2; try lia.
  assert (Z.log2 a < n) by (apply Z.log2_lt_pow2; lia). lia.
Qed.

Lemma lor_range : forall n a b, 0 <= n -> 0 <= a < 2 ^ n -> 0 <= b < 2 ^ n -> 0 <= Z.lor a b < 2 ^ n.
Proof.
  intros. split. { apply Z.lor_nonneg; lia. }
  apply below_pow2_bits; auto. { apply Z.lor_nonneg; lia. }
  intros. rewrite Z.lor_spec, (testbit_above n a), (testbit_above n b) by lia. reflexivity.
Qed.

Lemma lxor_range : forall n a b, 0 <= n -> 0 <= a < 2 ^ n -> 0 <= b < 2 ^ n -> 0 <= Z.lxor a b < 2 ^ n.
Proof.
  intros. assert (0 <= Z.lxor a b) by (apply Z.lxor_nonneg; lia). split; auto.
  apply below_pow2_bits; auto.
  intros. rewrite Z.lxor_spec, (testbit_above n a), (testbit_above n b) by lia. reflexivity.
Qed.

Lemma land_range : forall n a b, 0 <= n -> 0 <= a -> 0 <= b < 2 ^ n -> 0 <= Z.land a b < 2 ^ n.
Proof.
  intros. assert (0 <= Z.land a b) by (apply Z.land_nonneg; lia). split; auto.
  apply below_pow2_bits; auto.
  intros. rewrite Z.land_spec, (testbit_above n b) by lia. apply andb_false_r.
Qed.

Lemma shiftr_range : forall n m a, 0 <= m -> 0 <= n -> 0 <= a < 2 ^ (n + m) -> 0 <= Z.shiftr a m < 2 ^ n.
Proof.
  intros. rewrite Z.shiftr_div_pow2 by lia. split.
  - apply Z.div_pos; [lia|]. apply Z.pow_pos_nonneg; lia.
  - apply Z.div_lt_upper_bound. apply Z.pow_pos_nonneg; lia.
    rewrite <- Z.pow_add_r by lia. rewrite Z.add_comm. lia.
Qed.

Lemma land_255 : forall a, Z.land a 255 = a mod 256.
Proof. intros. change 255 with (Z.ones 8). rewrite Z.land_ones by lia. reflexivity. Qed.

(** Flattened digits *)
Lemma flat_bits_length : forall v l, length (flat_map (bits v) l) = (v * length l)%nat.
Proof.
  induction l; simpl.
  - lia.
  - rewrite app_length, bits_length, IHl. lia.
Qed.

Lemma flat_bits_nth : forall v l k, (0 < v)%nat -> (k < v * length l)%nat ->
  nth k (flat_map (bits v) l) false = Z.testbit (nth (k / v) l 0) (Z.of_nat (v - 1 - k mod v)).
Proof.
  induction l; intros k Hv Hk; simpl length in Hk; try lia. cbn [flat_map].
  destruct (Nat.lt_ge_cases k v) as [L|G].
  - rewrite app_nth1 by (rewrite bits_length; lia). rewrite bits_nth by lia.
    rewrite Nat.div_small, Nat.mod_small by lia. reflexivity.
  - rewrite app_nth2 by (rewrite bits_length; lia). rewrite bits_length, IHl by lia.
    replace k with ((k - v) + 1 * v)%nat at 3 4 by lia.
    rewrite Nat.div_add, Nat.mod_add by lia. rewrite Nat.add_1_r. reflexivity.
Qed.

Lemma flat_bits_inj : forall v a b, 
  Forall (fun x => 0 <= x < 2 ^ Z.of_nat v) a -> Forall (fun x => 0 <= x < 2 ^ Z.of_nat v) b ->
  length a = length b -> flat_map (bits v) a = flat_map (bits v) b -> a = b.
Proof.
  induction a; destruct b; simpl; intros Ha Hb L E; try lia; auto.
  inversion Ha; inversion Hb; subst.
  apply app_inj_length in E; [|rewrite !bits_length; auto]. destruct E.
  f_equal; auto. apply (bits_inj v); auto.
Qed.

Lemma testbit_byte : forall b k, 0 <= b < 256 -> 8 <= k -> Z.testbit b k = false.
Proof. intros. apply (testbit_above 8); auto; lia. Qed.

Lemma le_bytes_S : forall n v, le_bytes (S n) v = v mod 256 :: le_bytes n (v / 256).
Proof. reflexivity. Qed.
Global Arguments bits n v : simpl never.
Global Arguments le_bytes n v : simpl never.
Global Arguments be_bytes n v : simpl never.
Global Arguments be_val l : simpl never.
