(** Lemmas for the block ciphers: words, rotations, blocks, rounds, and each cipher in turn. *)
From Coq Require Import ZArith List Bool Arith Lia.
From Verif Require Import Base CipherModel CipherSpec.
Import ListNotations.
Local Open Scope Z_scope.

(* ------------------------------------------------------------------ *)
(** ** Words *)

Section Words.
  Variable w : Z.
  Hypothesis Hw : 0 < w.
  Let W2 : 0 < 2 ^ w. Proof. apply Z.pow_pos_nonneg; lia. Qed.

  Lemma word_mod : forall x, word w (x mod 2 ^ w).
  Proof. intros. unfold word. apply Z.mod_pos_bound; auto. Qed.
  Lemma wadd_word : forall x y, word w (wadd w x y).
  Proof. intros; apply word_mod. Qed.
  Lemma wsub_word : forall x y, word w (wsub w x y).
  Proof. intros; apply word_mod. Qed.
  Lemma wsub_wadd : forall x y, word w x -> wsub w (wadd w x y) y = x.
  Proof.
    intros x y H. unfold wsub, wadd. rewrite Zminus_mod_idemp_l.
    replace (x + y - y) with x by lia. apply Z.mod_small; auto.
  Qed.
  Lemma wadd_wsub : forall x y, word w x -> wadd w (wsub w x y) y = x.
  Proof.
    intros x y H. unfold wsub, wadd. rewrite Zplus_mod_idemp_l.
    replace (x - y + y) with x by lia. apply Z.mod_small; auto.
  Qed.

  Lemma word_bits : forall x, word w x <-> 0 <= x /\ forall k, w <= k -> Z.testbit x k = false.
  Proof.
    intros x. unfold word. split.
    - intros H. split; [lia|]. intros k Hk. destruct (Z.eq_dec x 0) as [->|]; [apply Z.testbit_0_l|].
      apply Z.bits_above_log2; [lia|]. apply Z.lt_le_trans with w; auto. apply Z.log2_lt_pow2; lia.
    - intros [H0 H]. split; auto. destruct (Z.eq_dec x 0) as [->|]; [lia|].
      apply Z.log2_lt_pow2; [lia|]. destruct (Z_lt_le_dec (Z.log2 x) w) as [|C]; auto.
      specialize (H _ C). rewrite Z.bit_log2 in H by lia. discriminate.
  Qed.
  Lemma lxor_word : forall x y, word w x -> word w y -> word w (Z.lxor x y).
  Proof.
    intros x y Hx Hy. apply word_bits in Hx, Hy. destruct Hx as [Hx Hx'], Hy as [Hy Hy'].
    apply word_bits. split; [apply Z.lxor_nonneg; tauto|]. intros k Hk.
    rewrite Z.lxor_spec, Hx', Hy' by lia. reflexivity.
  Qed.
  Lemma lor_word : forall x y, word w x -> word w y -> word w (Z.lor x y).
  Proof.
    intros x y Hx Hy. apply word_bits in Hx, Hy. destruct Hx as [Hx Hx'], Hy as [Hy Hy'].
    apply word_bits. split; [apply Z.lor_nonneg; tauto|]. intros k Hk.
    rewrite Z.lor_spec, Hx', Hy' by lia. reflexivity.
  Qed.
  Lemma land_word : forall x y, word w x -> word w y -> word w (Z.land x y).
  Proof.
    intros x y Hx Hy. apply word_bits in Hx, Hy. destruct Hx as [Hx Hx'], Hy as [Hy Hy'].
    apply word_bits. split; [apply Z.land_nonneg; tauto|]. intros k Hk.
    rewrite Z.land_spec, Hx', Hy' by lia. reflexivity.
  Qed.
  Lemma wshl_word : forall x n, word w (wshl w x n).
  Proof. intros; apply word_mod. Qed.
  Lemma shiftr_word : forall x n, 0 <= n -> word w x -> word w (Z.shiftr x n).
  Proof.
    intros x n Hn Hx. apply word_bits in Hx. destruct Hx as [Hx Hx'].
    apply word_bits. split; [apply Z.shiftr_nonneg; auto|]. intros k Hk.
    rewrite Z.shiftr_spec by lia. apply Hx'. lia.
  Qed.

  Hypothesis Hmask : forall y, Z.land y (w - 1) = y mod w.

  Lemma rotl_word : forall x y, word w x -> word w (rotl w x y).
  Proof.
    intros. unfold rotl. apply lor_word; [apply wshl_word|]. apply shiftr_word; auto.
    rewrite Hmask. apply Z.mod_pos_bound; lia.
  Qed.
  Lemma rotr_word : forall x y, word w x -> word w (rotr w x y).
  Proof.
    intros. unfold rotr. apply lor_word; [|apply wshl_word]. apply shiftr_word; auto.
    rewrite Hmask. apply Z.mod_pos_bound; lia.
  Qed.

  Lemma rotl_bit : forall x y k, word w x -> 0 <= k < w ->
    Z.testbit (rotl w x y) k = Z.testbit x ((k - y) mod w).
  Proof.
    intros x y k Hx Hk. apply word_bits in Hx. destruct Hx as [Hx Hx']. unfold rotl, wshl.
    rewrite !Hmask, Z.lor_spec, Z.mod_pow2_bits_low by lia.
    pose proof (Z.mod_pos_bound y w Hw) as By. pose proof (Z.mod_pos_bound (- y) w Hw) as By'.
    rewrite Z.shiftl_spec, Z.shiftr_spec by lia.
    assert (E : (k - y) mod w = (k - y mod w) mod w) by (rewrite Zminus_mod_idemp_r; auto).
    rewrite E. clear E.
    assert (E : (- y) mod w = if y mod w =? 0 then 0 else w - y mod w).
    { destruct (Z.eqb_spec (y mod w) 0) as [e|e].
      - apply Z_mod_zero_opp_full; auto.
      - apply Z_mod_nz_opp_full; auto. }
    rewrite E. clear E. set (r := y mod w) in *. clearbody r. clear By' y.
    destruct (Z.eqb_spec r 0) as [->|N0].
    - rewrite Z.sub_0_r, Z.add_0_r, orb_diag, Z.mod_small by lia. reflexivity.
    - destruct (Z_lt_le_dec k r) as [L|L].
      + rewrite (Z.testbit_neg_r x (k - r)) by lia. cbn [orb]. f_equal.
        apply (Z.mod_unique _ _ (-1)); lia.
      + rewrite (Hx' (k + (w - r))) by lia. rewrite orb_false_r, Z.mod_small by lia. reflexivity.
  Qed.
  Lemma rotr_rotl_opp : forall x y, rotr w x y = rotl w x (- y).
  Proof. intros. unfold rotr, rotl. rewrite Z.opp_involutive. apply Z.lor_comm. Qed.

  Lemma word_ext : forall x y, word w x -> word w y ->
    (forall k, 0 <= k < w -> Z.testbit x k = Z.testbit y k) -> x = y.
  Proof.
    intros x y Hx Hy H. apply Z.bits_inj'. intros k Hk.
    destruct (Z_lt_le_dec k w); [apply H; lia|].
    apply word_bits in Hx, Hy. rewrite (proj2 Hx), (proj2 Hy) by lia. reflexivity.
  Qed.
  Lemma rotl_rotl : forall x y z, word w x -> rotl w (rotl w x y) z = rotl w x (y + z).
  Proof.
    intros x y z Hx. apply word_ext; try (repeat apply rotl_word; auto; fail).
    intros k Hk. rewrite !rotl_bit; auto using rotl_word; try (apply Z.mod_pos_bound; lia).
    f_equal. rewrite Zminus_mod_idemp_l. f_equal. lia.
  Qed.
  Lemma rotl_0 : forall x, word w x -> rotl w x 0 = x.
  Proof.
    intros x Hx. apply word_ext; auto using rotl_word. intros k Hk.
    rewrite rotl_bit, Z.sub_0_r, Z.mod_small; auto.
  Qed.
  Lemma rotr_rotl : forall x y, word w x -> rotr w (rotl w x y) y = x.
  Proof. intros. rewrite rotr_rotl_opp, rotl_rotl, Z.add_opp_diag_r by auto. apply rotl_0; auto. Qed.
  Lemma rotl_rotr : forall x y, word w x -> rotl w (rotr w x y) y = x.
  Proof. intros. rewrite rotr_rotl_opp, rotl_rotl, Z.add_opp_diag_l by auto. apply rotl_0; auto. Qed.
End Words.

Lemma mask32 : forall y, Z.land y (32 - 1) = y mod 32.
Proof. intros. change (32 - 1) with (Z.ones 5). rewrite Z.land_ones by lia. reflexivity. Qed.
Lemma mask64 : forall y, Z.land y (64 - 1) = y mod 64.
Proof. intros. change (64 - 1) with (Z.ones 6). rewrite Z.land_ones by lia. reflexivity. Qed.
Lemma lxor_twice : forall x y, Z.lxor (Z.lxor x y) y = x.
Proof. intros. rewrite Z.lxor_assoc, Z.lxor_nilpotent, Z.lxor_0_r. reflexivity. Qed.

(* ------------------------------------------------------------------ *)
(** ** Blocks *)

Section Blocks.
  Variable big : bool.
  Variable sz : nat.
  Hypothesis Hsz : (0 < sz)%nat.
  Let w := 8 * Z.of_nat sz.
  Let pw : 2 ^ w = 256 ^ Z.of_nat sz.
  Proof. unfold w. rewrite Z.pow_mul_r by lia. reflexivity. Qed.

  Lemma word_of_word : forall s, bytes s -> length s = sz -> word w (word_of big s).
  Proof.
    intros s H L. unfold word, word_of. rewrite pw, <- L. destruct big.
    - apply be_val_bounds; auto.
    - apply le_val_bounds; auto.
  Qed.
  Lemma word_to_length : forall x, length (word_to big sz x) = sz.
  Proof. intros. unfold word_to. destruct big; [apply be_bytes_length|apply le_bytes_length]. Qed.
  Lemma word_to_bytes : forall x, bytes (word_to big sz x).
  Proof. intros. unfold word_to. destruct big; [apply be_bytes_bytes|apply le_bytes_bytes]. Qed.
  Lemma word_of_to : forall x, word w x -> word_of big (word_to big sz x) = x.
  Proof.
    intros x H. unfold word, word_of, word_to in *. rewrite pw in H. destruct big.
    - apply be_val_be_bytes; auto.
    - rewrite le_val_bytes_mod. apply Z.mod_small; auto.
  Qed.
  Lemma word_to_of : forall s, bytes s -> length s = sz -> word_to big sz (word_of big s) = s.
  Proof.
    intros s H L. unfold word_to, word_of. rewrite <- L. destruct big; [apply be_bytes_val|apply le_bytes_val]; auto.
  Qed.

  Lemma get_block_length : forall n s, length (get_block big sz n s) = n.
  Proof. induction n; intros; cbn [get_block length]; auto. Qed.
  Lemma get_block_words : forall n s, bytes s -> length s = (n * sz)%nat -> Forall (word w) (get_block big sz n s).
  Proof.
    induction n; intros s H L; cbn [get_block]; constructor.
    - apply word_of_word; [apply bytes_firstn; auto|]. rewrite firstn_length. cbn [Nat.mul] in L. lia.
    - apply IHn; [apply bytes_skipn; auto|]. rewrite skipn_length. cbn [Nat.mul] in L. lia.
  Qed.
  Lemma put_block_length : forall ws, length (put_block big sz ws None) = (length ws * sz)%nat.
  Proof.
    unfold put_block. induction ws; cbn [flat_map length Nat.mul]; auto.
    rewrite app_length, word_to_length, IHws. reflexivity.
  Qed.
  Lemma put_block_bytes : forall ws, bytes (put_block big sz ws None).
  Proof.
    unfold put_block. induction ws; cbn [flat_map]; [constructor|]. apply bytes_app. split; auto using word_to_bytes.
  Qed.
  Lemma get_put : forall ws, Forall (word w) ws -> get_block big sz (length ws) (put_block big sz ws None) = ws.
  Proof.
    unfold put_block. induction ws as [|x ws IH]; intros H; cbn [flat_map length get_block]; auto.
    inversion H; subst. pose proof (word_to_length x) as L.
    assert (E1 : firstn sz (word_to big sz x ++ flat_map (word_to big sz) ws) = word_to big sz x).
    { rewrite <- L at 1. apply firstn_app_exact. }
    assert (E2 : skipn sz (word_to big sz x ++ flat_map (word_to big sz) ws) = flat_map (word_to big sz) ws).
    { rewrite <- L at 1. apply skipn_app_exact. }
    rewrite E1, E2, word_of_to by auto. f_equal. auto.
  Qed.
  Lemma put_get : forall n s, bytes s -> length s = (n * sz)%nat -> put_block big sz (get_block big sz n s) None = s.
  Proof.
    unfold put_block. induction n; intros s H L; cbn [flat_map get_block].
    - destruct s; [auto|discriminate].
    - cbn [Nat.mul] in L. rewrite IHn, word_to_of; auto using bytes_firstn, bytes_skipn.
      + apply firstn_skipn.
      + rewrite firstn_length. lia.
      + rewrite skipn_length. lia.
  Qed.

  (** Two word functions that undo each other give block functions that do. *)
  Lemma process_undoes : forall n f g,
    (forall ws, Forall (word w) ws -> length ws = n ->
       exists vs, f ws = Some vs /\ Forall (word w) vs /\ length vs = n /\ g vs = Some ws) ->
    undoes (n * sz) (process big sz n f) (process big sz n g).
  Proof.
    intros n f g H b Hb L. unfold process.
    destruct (H (get_block big sz n b)) as (vs & E & Hvs & Lvs & D);
      [apply get_block_words; auto|apply get_block_length|].
    rewrite E. exists (put_block big sz vs None). repeat split.
    - apply put_block_bytes.
    - rewrite put_block_length, Lvs. reflexivity.
    - rewrite <- Lvs, get_put, D by auto. rewrite put_get; auto.
  Qed.
  Lemma process_masks : forall n f, masks (n * sz) (process big sz n f).
  Proof.
    intros n f b m c Hb L. unfold process. destruct (f (get_block big sz n b)); [|discriminate].
    intros E. injection E as <-. reflexivity.
  Qed.
  Lemma process_cipher : forall n f g,
    (forall ws, Forall (word w) ws -> length ws = n ->
       exists vs, f ws = Some vs /\ Forall (word w) vs /\ length vs = n /\ g vs = Some ws) ->
    (forall ws, Forall (word w) ws -> length ws = n ->
       exists vs, g ws = Some vs /\ Forall (word w) vs /\ length vs = n /\ f vs = Some ws) ->
    block_cipher (n * sz) (process big sz n f) (process big sz n g).
  Proof.
    intros n f g H1 H2. split; [|split; [|split]]; auto using process_undoes, process_masks.
  Qed.
End Blocks.

(** Two-word and four-word functions. *)
Definition pair_ok (w : Z) (p : Z * Z) : Prop := word w (fst p) /\ word w (snd p).
Lemma on_pair_undoes : forall w f g,
  (forall y z, word w y -> word w z -> exists y' z',
     f y z = Some (y', z') /\ word w y' /\ word w z' /\ g y' z' = Some (y, z)) ->
  forall ws, Forall (word w) ws -> length ws = 2%nat ->
    exists vs, on_pair f ws = Some vs /\ Forall (word w) vs /\ length vs = 2%nat /\ on_pair g vs = Some ws.
Proof.
  intros w f g H ws F L. destruct ws as [|y [|z [|]]]; try discriminate L.
  inversion F as [|? ? Hy F']; subst. inversion F' as [|? ? Hz _]; subst.
  destruct (H y z Hy Hz) as (y' & z' & E & Hy' & Hz' & D).
  unfold on_pair. cbn [nth]. rewrite E. exists [y'; z']. cbn [nth length]. rewrite D.
  repeat split; auto.
Qed.

(** Rounds: a list of rounds followed by the same rounds undone in the opposite order. *)
Lemma rounds_undone : forall (A B : Type) (P : A -> Prop) (f g : A -> B -> A),
  (forall a b, P a -> P (f a b) /\ g (f a b) b = a) ->
  forall l a, P a -> P (fold_left f l a) /\ fold_left g (rev l) (fold_left f l a) = a.
Proof.
  intros A B P f g H. induction l as [|b l IH]; intros a Ha; cbn [fold_left rev]; auto.
  destruct (H a b Ha) as [H1 H2]. destruct (IH _ H1) as [H3 H4]. split; auto.
  rewrite fold_left_app, H4. cbn [fold_left]. exact H2.
Qed.
Lemma rev_seq : forall r, rev (seq 0 r) = map (fun i => r - 1 - i)%nat (seq 0 r).
Proof.
  intros r. apply (nth_ext _ _ 0%nat 0%nat).
  - rewrite rev_length, map_length. reflexivity.
  - intros i Hi. rewrite rev_length, seq_length in Hi. rewrite rev_nth by (rewrite seq_length; lia).
    rewrite seq_length, seq_nth by lia.
    rewrite (nth_indep _ 0%nat (r - 1 - 0)%nat) by (rewrite map_length, seq_length; lia).
    rewrite (map_nth (fun i => r - 1 - i)%nat), seq_nth by lia. lia.
Qed.
Lemma fold_left_map : forall (A B C : Type) (f : A -> B -> A) (h : C -> B) l a,
  fold_left f (map h l) a = fold_left (fun a c => f a (h c)) l a.
Proof. induction l; intros; cbn [map fold_left]; auto. Qed.
Lemma fold_left_ext_in : forall (A B : Type) (f g : A -> B -> A) l a,
  (forall a b, In b l -> f a b = g a b) -> fold_left f l a = fold_left g l a.
Proof.
  induction l as [|x l IH]; intros a H; cbn [fold_left]; auto.
  rewrite H by (left; auto). apply IH. intros. apply H. right; auto.
Qed.

(* ------------------------------------------------------------------ *)
(** ** TEA and XTEA *)

Local Notation W := (word 32).
Lemma add_w : forall x y, W (wadd 32 x y). Proof. apply wadd_word. lia. Qed.
Lemma sub_w : forall x y, W (wsub 32 x y). Proof. apply wsub_word. lia. Qed.
Lemma sub_add : forall x y, W x -> wsub 32 (wadd 32 x y) y = x. Proof. apply wsub_wadd. Qed.
Lemma add_sub : forall x y, W x -> wadd 32 (wsub 32 x y) y = x. Proof. apply wadd_wsub. Qed.
Local Hint Resolve add_w sub_w : core.

(** After i rounds the counter is i * DELTA; DELTA is odd, so for i below the number of rounds the
    counter has not reached the limit. *)
Definition tsum (i : Z) : Z := wmul 32 i DELTA.
Lemma tsum_add : forall i, wadd 32 (tsum i) DELTA = tsum (i + 1).
Proof. intros. unfold wadd, tsum, wmul. rewrite Zplus_mod_idemp_l. f_equal. lia. Qed.
Lemma tsum_sub : forall i, wsub 32 (tsum (i + 1)) DELTA = tsum i.
Proof. intros. unfold wsub, tsum, wmul. rewrite Zminus_mod_idemp_l. f_equal. lia. Qed.
Lemma tsum_0 : tsum 0 = 0. Proof. reflexivity. Qed.
Lemma tsum_inj : forall i j, 0 <= i < 2 ^ 32 -> 0 <= j < 2 ^ 32 -> tsum i = tsum j -> i = j.
Proof.
  intros i j Hi Hj E. unfold tsum, wmul in E.
  assert (I : forall k, (k * DELTA mod 2 ^ 32 * 0x144cbc89) mod 2 ^ 32 = k mod 2 ^ 32).
  { intros k. rewrite Zmult_mod_idemp_l.
    replace (k * DELTA * 340573321) with (k + k * 210485888 * 2 ^ 32).
    - apply Z_mod_plus_full.
    - unfold DELTA. lia. }
  rewrite <- (Z.mod_small i (2 ^ 32)), <- (Z.mod_small j (2 ^ 32)) by auto.
  rewrite <- I, <- (I j), E. reflexivity.
Qed.

Section TeaLike.
  (** one round forwards and backwards, as a function of the counter before and after it *)
  Variables (fwd bwd : Z -> Z * Z -> Z * Z).
  Variables (el : nat -> Z -> Z -> Z -> Z -> option (Z * Z)) (dl : nat -> Z -> Z -> Z -> option (Z * Z)).
  Hypothesis fwd_ok : forall i p, pair_ok 32 p -> pair_ok 32 (fwd i p) /\ bwd i (fwd i p) = p.
  Hypothesis bwd_ok : forall i p, pair_ok 32 p -> pair_ok 32 (bwd i p) /\ fwd i (bwd i p) = p.
  Hypothesis el_S : forall fuel limit i y z, tsum i <> limit ->
    el (S fuel) limit (tsum i) y z = let (y', z') := fwd i (y, z) in el fuel limit (tsum (i + 1)) y' z'.
  Hypothesis el_end : forall fuel limit y z, el fuel limit limit y z = Some (y, z).
  Hypothesis dl_S : forall fuel i y z, tsum (i + 1) <> 0 ->
    dl (S fuel) (tsum (i + 1)) y z = let (y', z') := bwd i (y, z) in dl fuel (tsum i) y' z'.
  Hypothesis dl_end : forall fuel y z, dl fuel 0 y z = Some (y, z).

  Lemma el_run : forall m i y z, 0 <= i -> i + Z.of_nat m < 2 ^ 32 ->
    el m (tsum (i + Z.of_nat m)) (tsum i) y z =
    Some (fold_left (fun p j => fwd (i + Z.of_nat j) p) (seq 0 m) (y, z)).
  Proof.
    induction m as [|m IH]; intros i y z H0 H.
    - change (Z.of_nat 0) with 0. rewrite Z.add_0_r. apply el_end.
    - rewrite el_S.
      + cbn [seq fold_left]. rewrite Z.add_0_r. destruct (fwd i (y, z)) as [y' z'].
        replace (i + Z.of_nat (S m)) with (i + 1 + Z.of_nat m) by lia.
        rewrite IH by lia. f_equal. rewrite <- seq_shift, fold_left_map.
        apply fold_left_ext_in. intros p j _. f_equal. lia.
      + intros C. apply tsum_inj in C; lia.
  Qed.
  Lemma dl_run : forall m y z, Z.of_nat m < 2 ^ 32 ->
    dl m (tsum (Z.of_nat m)) y z =
    Some (fold_left (fun p j => bwd (Z.of_nat j) p) (rev (seq 0 m)) (y, z)).
  Proof.
    induction m as [|m IH]; intros y z H.
    - apply dl_end.
    - replace (Z.of_nat (S m)) with (Z.of_nat m + 1) by lia. rewrite dl_S.
      + rewrite seq_S, rev_app_distr. cbn [rev app fold_left Nat.add].
        destruct (bwd (Z.of_nat m) (y, z)) as [y' z']. apply IH. lia.
      + intros C. change 0 with (tsum 0) in C. apply tsum_inj in C; lia.
  Qed.

  Lemma tea_like : forall rounds, 1 <= rounds < 2 ^ 31 ->
    block_cipher 8
      (process true 4 2 (on_pair (el (Z.to_nat rounds) (tea_limit rounds) 0)))
      (process true 4 2 (on_pair (dl (Z.to_nat rounds) (tea_limit rounds)))).
  Proof.
    intros rounds Hr. set (m := Z.to_nat rounds).
    assert (Hm : rounds = Z.of_nat m) by (unfold m; lia).
    assert (Hm2 : Z.of_nat m < 2 ^ 32) by lia.
    change (tea_limit rounds) with (tsum rounds). rewrite Hm.
    assert (EE : forall y z, el m (tsum (Z.of_nat m)) 0 y z =
                 Some (fold_left (fun p j => fwd (Z.of_nat j) p) (seq 0 m) (y, z))).
    { intros. pose proof (el_run m 0 y z) as R. rewrite Z.add_0_l, tsum_0 in R. apply R; lia. }
    assert (ED : forall y z, dl m (tsum (Z.of_nat m)) y z =
                 Some (fold_left (fun p j => bwd (Z.of_nat j) p) (rev (seq 0 m)) (y, z))).
    { intros. apply dl_run. lia. }
    change 8%nat with (2 * 4)%nat. apply process_cipher; [lia| |]; change (8 * Z.of_nat 4) with 32.
    - apply on_pair_undoes. intros y z Hy Hz. rewrite EE.
      destruct (rounds_undone _ _ (pair_ok 32) (fun p j => fwd (Z.of_nat j) p) (fun p j => bwd (Z.of_nat j) p)
                  (fun a b => fwd_ok (Z.of_nat b) a) (seq 0 m) (y, z)) as [H1 H2]; [split; auto|].
      destruct (fold_left (fun p j => fwd (Z.of_nat j) p) (seq 0 m) (y, z)) as [y' z'].
      destruct H1 as [Hy' Hz']. exists y', z'. repeat split; try apply Hy'; try apply Hz'.
      rewrite ED, H2. reflexivity.
    - apply on_pair_undoes. intros y z Hy Hz. rewrite ED.
      destruct (rounds_undone _ _ (pair_ok 32) (fun p j => bwd (Z.of_nat j) p) (fun p j => fwd (Z.of_nat j) p)
                  (fun a b => bwd_ok (Z.of_nat b) a) (rev (seq 0 m)) (y, z)) as [H1 H2]; [split; auto|].
      destruct (fold_left (fun p j => bwd (Z.of_nat j) p) (rev (seq 0 m)) (y, z)) as [y' z'].
      destruct H1 as [Hy' Hz']. exists y', z'. repeat split; try apply Hy'; try apply Hz'.
      rewrite EE. rewrite rev_involutive in H2. rewrite H2. reflexivity.
  Qed.
End TeaLike.

Definition tea_fwd (k : list Z) (i : Z) (p : Z * Z) : Z * Z :=
  let (y, z) := p in let sum := tsum (i + 1) in
  let y := wadd 32 y (tea_f z (kat k 0) sum (kat k 1)) in
  (y, wadd 32 z (tea_f y (kat k 2) sum (kat k 3))).
Definition tea_bwd (k : list Z) (i : Z) (p : Z * Z) : Z * Z :=
  let (y, z) := p in let sum := tsum (i + 1) in
  let z := wsub 32 z (tea_f y (kat k 2) sum (kat k 3)) in
  (wsub 32 y (tea_f z (kat k 0) sum (kat k 1)), z).
Lemma tea_cipher : forall key rounds, 1 <= rounds < 2 ^ 31 ->
  block_cipher 8 (tea_enc key rounds) (tea_dec key rounds).
Proof.
  intros key rounds Hr. unfold tea_enc, tea_dec. set (k := tea_key key).
  apply (tea_like (tea_fwd k) (tea_bwd k) (fun f l s y z => tea_enc_loop f k l s y z)
           (fun f s y z => tea_dec_loop f k s y z)); auto.
  - intros i [y z] [Hy Hz]. unfold tea_fwd, tea_bwd. cbn [fst snd] in *. split; [split; cbn [fst snd]; auto|].
    rewrite !sub_add by auto. reflexivity.
  - intros i [y z] [Hy Hz]. unfold tea_fwd, tea_bwd. cbn [fst snd] in *. split; [split; cbn [fst snd]; auto|].
    rewrite !add_sub by auto. reflexivity.
  - intros fuel limit i y z N. cbn [tea_enc_loop]. rewrite (proj2 (Z.eqb_neq _ _) N), tsum_add. reflexivity.
  - intros fuel limit y z. destruct fuel; cbn [tea_enc_loop]; rewrite Z.eqb_refl; reflexivity.
  - intros fuel i y z N. cbn [tea_dec_loop]. rewrite (proj2 (Z.eqb_neq _ _) N), tsum_sub. reflexivity.
  - intros fuel y z. destruct fuel; reflexivity.
Qed.

Definition xtea_fwd (k : list Z) (i : Z) (p : Z * Z) : Z * Z :=
  let (y, z) := p in
  let y := wadd 32 y (xtea_f z (tsum i) (xtea_k0 k (tsum i))) in
  (y, wadd 32 z (xtea_f y (tsum (i + 1)) (xtea_k1 k (tsum (i + 1))))).
Definition xtea_bwd (k : list Z) (i : Z) (p : Z * Z) : Z * Z :=
  let (y, z) := p in
  let z := wsub 32 z (xtea_f y (tsum (i + 1)) (xtea_k1 k (tsum (i + 1)))) in
  (wsub 32 y (xtea_f z (tsum i) (xtea_k0 k (tsum i))), z).
Lemma xtea_cipher : forall key rounds, 1 <= rounds < 2 ^ 31 ->
  block_cipher 8 (xtea_enc key rounds) (xtea_dec key rounds).
Proof.
  intros key rounds Hr. unfold xtea_enc, xtea_dec. set (k := tea_key key).
  apply (tea_like (xtea_fwd k) (xtea_bwd k) (fun f l s y z => xtea_enc_loop f k l s y z)
           (fun f s y z => xtea_dec_loop f k s y z)); auto.
  - intros i [y z] [Hy Hz]. unfold xtea_fwd, xtea_bwd. cbn [fst snd] in *. split; [split; cbn [fst snd]; auto|].
    rewrite !sub_add by auto. reflexivity.
  - intros i [y z] [Hy Hz]. unfold xtea_fwd, xtea_bwd. cbn [fst snd] in *. split; [split; cbn [fst snd]; auto|].
    rewrite !add_sub by auto. reflexivity.
  - intros fuel limit i y z N. cbn [xtea_enc_loop]. rewrite (proj2 (Z.eqb_neq _ _) N), tsum_add. reflexivity.
  - intros fuel limit y z. destruct fuel; cbn [xtea_enc_loop]; rewrite Z.eqb_refl; reflexivity.
  - intros fuel i y z N. cbn [xtea_dec_loop]. rewrite (proj2 (Z.eqb_neq _ _) N), tsum_sub. reflexivity.
  - intros fuel y z. destruct fuel; reflexivity.
Qed.

(* ------------------------------------------------------------------ *)
(** ** RC5 *)

Lemma rotl32_w : forall x y, W x -> W (rotl 32 x y).
Proof. apply rotl_word; [lia|apply mask32]. Qed.
Lemma rotr32_w : forall x y, W x -> W (rotr 32 x y).
Proof. apply rotr_word; [lia|apply mask32]. Qed.
Lemma rotr_rotl32 : forall x y, W x -> rotr 32 (rotl 32 x y) y = x.
Proof. apply rotr_rotl; [lia|apply mask32]. Qed.
Lemma rotl_rotr32 : forall x y, W x -> rotl 32 (rotr 32 x y) y = x.
Proof. apply rotl_rotr; [lia|apply mask32]. Qed.
Lemma xor_w : forall x y, W x -> W y -> W (Z.lxor x y).
Proof. apply lxor_word. lia. Qed.
Local Hint Resolve rotl32_w rotr32_w xor_w : core.

Lemma rc_mix_length : forall m h st l a b, length (rc_mix m h st l a b) = length st.
Proof. induction m; intros; cbn [rc_mix]; auto. rewrite IHm, upd_length. reflexivity. Qed.
Lemma rc_table_length : forall n x, length (rc_table n x) = n.
Proof. induction n; intros; cbn [rc_table length]; auto. Qed.
Lemma rc_key_length : forall n key, length (rc_key n key) = n.
Proof. intros. unfold rc_key. rewrite rc_mix_length. apply rc_table_length. Qed.

Definition rc5_unr (s : list Z) (p : Z * Z) (i : nat) : Z * Z :=
  let (a, b) := p in
  let b := Z.lxor (rotr 32 (wsub 32 b (nth (2 + (2 * i + 1)) s 0)) a) a in
  (Z.lxor (rotr 32 (wsub 32 a (nth (2 + (2 * i + 0)) s 0)) b) b, b).
Lemma lxor_mid : forall x y, Z.lxor (Z.lxor x y) x = y.
Proof. intros. rewrite (Z.lxor_comm x y). apply lxor_twice. Qed.
Lemma rc5_fwd : forall s p i, pair_ok 32 p -> pair_ok 32 (rc5_round s p i) /\ rc5_unr s (rc5_round s p i) i = p.
Proof.
  intros s [a b] i [Ha Hb]. cbn [fst snd] in *. unfold rc5_round, rc5_unr. split; [split; cbn [fst snd]; auto|].
  rewrite !sub_add, rotr_rotl32 by auto. rewrite lxor_mid, rotr_rotl32, lxor_twice by auto. reflexivity.
Qed.
Lemma rc5_bwd : forall s p i, pair_ok 32 p -> pair_ok 32 (rc5_unr s p i) /\ rc5_round s (rc5_unr s p i) i = p.
Proof.
  intros s [a b] i [Ha Hb]. cbn [fst snd] in *. unfold rc5_round, rc5_unr. split; [split; cbn [fst snd]; auto|].
  rewrite lxor_twice, rotl_rotr32, add_sub by auto.
  rewrite (Z.lxor_comm a), lxor_twice, rotl_rotr32, add_sub by auto. reflexivity.
Qed.
Lemma rc5_dec_rounds : forall s r p, length s = (2 * (r + 1))%nat ->
  fold_left (rc5_unround s) (seq 0 r) p = fold_left (rc5_unr s) (rev (seq 0 r)) p.
Proof.
  intros s r p L. rewrite rev_seq, fold_left_map. apply fold_left_ext_in. intros [a b] i Hi.
  apply in_seq in Hi. unfold rc5_unround, rc5_unr. rewrite L.
  replace (2 * (r + 1) - 2 * (i + 1) + 1)%nat with (2 + (2 * (r - 1 - i) + 1))%nat by lia.
  replace (2 * (r + 1) - 2 * (i + 1) + 0)%nat with (2 + (2 * (r - 1 - i) + 0))%nat by lia. reflexivity.
Qed.
Lemma rc5_cipher : forall key r, block_cipher 8 (rc5_enc key r) (rc5_dec key r).
Proof.
  intros key r. unfold rc5_enc, rc5_dec. pose proof (rc_key_length (2 * (r + 1)) key) as L.
  set (s := rc_key (2 * (r + 1)) key) in *. clearbody s.
  change 8%nat with (2 * 4)%nat. apply process_cipher; [lia| |]; change (8 * Z.of_nat 4) with 32;
    apply on_pair_undoes; intros y z Hy Hz; unfold rc5_enc_words, rc5_dec_words; rewrite ?(rc5_dec_rounds s r _ L).
  - destruct (rounds_undone _ _ (pair_ok 32) (rc5_round s) (rc5_unr s) (rc5_fwd s) (seq 0 r)
                (wadd 32 y (nth 0 s 0), wadd 32 z (nth 1 s 0))) as [H1 H2]; [split; cbn [fst snd]; auto|].
    destruct (fold_left (rc5_round s) (seq 0 r) _) as [y' z']. destruct H1 as [Hy' Hz'].
    exists y', z'. repeat split; try apply Hy'; try apply Hz'.
    rewrite (rc5_dec_rounds s r _ L), H2, !sub_add by auto. reflexivity.
  - destruct (rounds_undone _ _ (pair_ok 32) (rc5_unr s) (rc5_round s) (rc5_bwd s) (rev (seq 0 r)) (y, z)) as [H1 H2];
      [split; cbn [fst snd]; auto|].
    rewrite rev_involutive in H2.
    destruct (fold_left (rc5_unr s) (rev (seq 0 r)) (y, z)) as [y' z']. destruct H1 as [Hy' Hz']. cbn [fst snd] in *.
    eexists _, _. split; [reflexivity|]. split; [auto|]. split; [auto|].
    rewrite !add_sub, H2 by auto. reflexivity.
Qed.

(* ------------------------------------------------------------------ *)
(** ** RC6 *)

Definition quad_ok (w : Z) (q : quad) : Prop :=
  let '(a, b, c, d) := q in word w a /\ word w b /\ word w c /\ word w d.
Lemma on_quad_undoes : forall w f g,
  (forall q, quad_ok w q -> quad_ok w (f q) /\ g (f q) = q) ->
  forall ws, Forall (word w) ws -> length ws = 4%nat ->
    exists vs, on_quad f ws = Some vs /\ Forall (word w) vs /\ length vs = 4%nat /\ on_quad g vs = Some ws.
Proof.
  intros w f g H ws F L. destruct ws as [|a [|b [|c [|d [|]]]]]; try discriminate L.
  rewrite !Forall_cons_iff in F. destruct F as (Ha & Hb & Hc & Hd & _).
  destruct (H (a, b, c, d)) as [H1 H2]; [repeat split; try apply Ha; try apply Hb; try apply Hc; apply Hd|].
  unfold on_quad. cbn [nth]. destruct (f (a, b, c, d)) as [[[a' b'] c'] d'].
  destruct H1 as (Ha' & Hb' & Hc' & Hd'). exists [a'; b'; c'; d']. cbn [nth length]. rewrite H2.
  repeat split; auto.
Qed.
Lemma rc6_t_w : forall b, W (rc6_t b).
Proof. intros. unfold rc6_t. apply rotl32_w. apply word_mod. lia. Qed.
Local Hint Resolve rc6_t_w : core.
Definition rc6_unr (s : list Z) (q : quad) (i : nat) : quad :=
  let '(a, b, c, d) := q in
  let '(a, b, c, d) := (d, a, b, c) in
  let u := rc6_t d in
  let t := rc6_t b in
  let c := Z.lxor (rotr 32 (wsub 32 c (nth (2 + 2 * i + 1) s 0)) t) u in
  let a := Z.lxor (rotr 32 (wsub 32 a (nth (2 + 2 * i) s 0)) u) t in
  (a, b, c, d).
Lemma rc6_fwd : forall s q i, quad_ok 32 q -> quad_ok 32 (rc6_round s q i) /\ rc6_unr s (rc6_round s q i) i = q.
Proof.
  intros s [[[a b] c] d] i (Ha & Hb & Hc & Hd). unfold rc6_round, rc6_unr, quad_ok. split; [auto 6|].
  rewrite !sub_add, !rotr_rotl32, !lxor_twice by auto. reflexivity.
Qed.
Lemma rc6_bwd : forall s q i, quad_ok 32 q -> quad_ok 32 (rc6_unr s q i) /\ rc6_round s (rc6_unr s q i) i = q.
Proof.
  intros s [[[a b] c] d] i (Ha & Hb & Hc & Hd). unfold rc6_round, rc6_unr, quad_ok. split; [auto 6|].
  rewrite !lxor_twice, !rotl_rotr32, !add_sub by auto. reflexivity.
Qed.
Lemma rc6_dec_rounds : forall s r p, length s = (2 * (r + 2))%nat ->
  fold_left (rc6_unround s) (seq 0 r) p = fold_left (rc6_unr s) (rev (seq 0 r)) p.
Proof.
  intros s r p L. rewrite rev_seq, fold_left_map. apply fold_left_ext_in. intros [[[a b] c] d] i Hi.
  apply in_seq in Hi. unfold rc6_unround, rc6_unr. rewrite L.
  replace (2 * (r + 2) - 2 - 2 * (i + 1))%nat with (2 + 2 * (r - 1 - i))%nat by lia. reflexivity.
Qed.
Lemma rc6_cipher : forall key r, block_cipher 16 (rc6_enc key r) (rc6_dec key r).
Proof.
  intros key r. unfold rc6_enc, rc6_dec. pose proof (rc_key_length (2 * (r + 2)) key) as L.
  set (s := rc_key (2 * (r + 2)) key) in *. clearbody s.
  assert (E : (length s - 2 = 2 + 2 * r)%nat) by lia.
  change 16%nat with (4 * 4)%nat. apply process_cipher; [lia| |]; change (8 * Z.of_nat 4) with 32;
    apply on_quad_undoes; intros [[[a b] c] d] (Ha & Hb & Hc & Hd); unfold rc6_enc_words, rc6_dec_words; rewrite E.
  - destruct (rounds_undone _ _ (quad_ok 32) (rc6_round s) (rc6_unr s) (rc6_fwd s) (seq 0 r)
                (a, wadd 32 b (nth 0 s 0), c, wadd 32 d (nth 1 s 0))) as [H1 H2]; [unfold quad_ok; auto 6|].
    destruct (fold_left (rc6_round s) (seq 0 r) _) as [[[a' b'] c'] d']. destruct H1 as (Ha' & Hb' & Hc' & Hd').
    split; [unfold quad_ok; auto 6|]. rewrite !sub_add, (rc6_dec_rounds s r _ L), H2, !sub_add by auto. reflexivity.
  - rewrite (rc6_dec_rounds s r _ L).
    destruct (rounds_undone _ _ (quad_ok 32) (rc6_unr s) (rc6_round s) (rc6_bwd s) (rev (seq 0 r))
                (wsub 32 a (nth (2 + 2 * r) s 0), b, wsub 32 c (nth (2 + 2 * r + 1) s 0), d)) as [H1 H2]; [unfold quad_ok; auto 6|].
    rewrite rev_involutive in H2.
    destruct (fold_left (rc6_unr s) (rev (seq 0 r)) _) as [[[a' b'] c'] d']. destruct H1 as (Ha' & Hb' & Hc' & Hd').
    split; [unfold quad_ok; auto 6|]. rewrite !add_sub, H2, !add_sub by auto. reflexivity.
Qed.

(* ------------------------------------------------------------------ *)
(** ** SPECK and SIMON *)

Lemma nth_word0 : forall w, 0 < w -> forall k i, Forall (word w) k -> word w (nth i k 0).
Proof.
  intros w Hw k i F. destruct (Nat.lt_ge_cases i (length k)).
  - rewrite Forall_forall in F. apply F. apply nth_In; auto.
  - rewrite nth_overflow by auto. unfold word. assert (0 < 2 ^ w) by (apply Z.pow_pos_nonneg; lia). lia.
Qed.
Section LightCiphers.
  Variable w : Z.
  Variable sz : nat.
  Hypothesis Hw : 0 < w.
  Hypothesis Hmask : forall y, Z.land y (w - 1) = y mod w.
  Hypothesis Hsz : (0 < sz)%nat.
  Hypothesis Hwsz : w = 8 * Z.of_nat sz.
  Let wadd_w := wadd_word w Hw. Let wsub_w := wsub_word w Hw.
  Let lxor_w := lxor_word w Hw. Let land_w := land_word w Hw.
  Let nth_word := nth_word0 w Hw.
  Let rl_w := rotl_word w Hw Hmask. Let rr_w := rotr_word w Hw Hmask.
  Hint Resolve wadd_w wsub_w lxor_w land_w rl_w rr_w : core.

  Lemma TF83_ok : forall k p, word w k -> pair_ok w p -> pair_ok w (TF83 w k p).
  Proof. intros k [x y] Hk [Hx Hy]. cbn [fst snd] in *. unfold TF83, pair_ok. cbn [fst snd]. auto 8. Qed.
  Lemma TR83_ok : forall k p, word w k -> pair_ok w p -> pair_ok w (TR83 w k p).
  Proof. intros k [x y] Hk [Hx Hy]. cbn [fst snd] in *. unfold TR83, pair_ok. cbn [fst snd]. auto 8. Qed.
  Lemma TR83_TF83 : forall k p, word w k -> pair_ok w p -> TR83 w k (TF83 w k p) = p.
  Proof.
    intros k [x y] Hk [Hx Hy]. cbn [fst snd] in *. unfold TR83, TF83.
    rewrite !lxor_twice, (rotr_rotl w Hw Hmask y 3), (wsub_wadd w) by auto.
    rewrite (rotl_rotr w Hw Hmask) by auto. reflexivity.
  Qed.
  Lemma TF83_TR83 : forall k p, word w k -> pair_ok w p -> TF83 w k (TR83 w k p) = p.
  Proof.
    intros k [x y] Hk [Hx Hy]. cbn [fst snd] in *. unfold TR83, TF83.
    rewrite (rotr_rotl w Hw Hmask) by auto. rewrite (wadd_wsub w), lxor_twice by auto.
    rewrite (rotl_rotr w Hw Hmask), lxor_twice by auto. reflexivity.
  Qed.
  Lemma speck_fwd : forall R k p, Forall (word w) k -> pair_ok w p ->
    pair_ok w (speck_encrypt w R k p) /\ speck_decrypt w R k (speck_encrypt w R k p) = p.
  Proof.
    intros R k p Hk Hp. unfold speck_encrypt, speck_decrypt.
    apply (rounds_undone _ _ (pair_ok w) (fun c i => TF83 w (nth i k 0) c) (fun p i => TR83 w (nth i k 0) p)); auto.
    intros a b Ha. split; [apply TF83_ok|apply TR83_TF83]; auto using nth_word.
  Qed.
  Lemma speck_bwd : forall R k p, Forall (word w) k -> pair_ok w p ->
    pair_ok w (speck_decrypt w R k p) /\ speck_encrypt w R k (speck_decrypt w R k p) = p.
  Proof.
    intros R k p Hk Hp. unfold speck_encrypt, speck_decrypt. rewrite <- (rev_involutive (seq 0 R)) at 2.
    apply (rounds_undone _ _ (pair_ok w) (fun p i => TR83 w (nth i k 0) p) (fun c i => TF83 w (nth i k 0) c)); auto.
    intros a b Ha. split; [apply TR83_ok|apply TF83_TR83]; auto using nth_word.
  Qed.

  Lemma simon_f_w : forall v, word w v -> word w (simon_f w v).
  Proof. intros. unfold simon_f. auto. Qed.
  Hint Resolve simon_f_w : core.
  Lemma R2_ok : forall k l p, word w k -> word w l -> pair_ok w p -> pair_ok w (simon_R2 w k l p).
  Proof. intros k l [x y] Hk Hl [Hx Hy]. cbn [fst snd] in *. unfold simon_R2, pair_ok. cbn [fst snd]. auto 8. Qed.
  Lemma unR2_ok : forall k l p, word w k -> word w l -> pair_ok w p -> pair_ok w (simon_unR2 w k l p).
  Proof. intros k l [x y] Hk Hl [Hx Hy]. cbn [fst snd] in *. unfold simon_unR2, simon_R2, pair_ok. cbn [fst snd]. auto 8. Qed.
  Lemma lxor_fk : forall y f k, Z.lxor (Z.lxor (Z.lxor (Z.lxor y f) k) f) k = y.
  Proof.
    intros. rewrite (Z.lxor_assoc (Z.lxor y f) k f), (Z.lxor_comm k f), <- Z.lxor_assoc, lxor_twice, lxor_twice. reflexivity.
  Qed.
  Lemma unR2_R2 : forall k l p, simon_unR2 w l k (simon_R2 w k l p) = p.
  Proof. intros k l [x y]. unfold simon_unR2, simon_R2. rewrite !lxor_fk. reflexivity. Qed.
  Lemma R2_unR2 : forall k l p, simon_R2 w k l (simon_unR2 w l k p) = p.
  Proof. intros k l [x y]. unfold simon_unR2, simon_R2. rewrite !lxor_fk. reflexivity. Qed.
  Lemma half_odd : forall R, (Nat.odd R = true -> (R - 1) / 2 = R / 2)%nat.
  Proof.
    intros R H. apply Nat.odd_spec in H. destruct H as [m ->].
    replace (2 * m + 1 - 1)%nat with (m * 2)%nat by lia. rewrite Nat.div_mul by lia.
    apply (Nat.div_unique _ _ _ 1); lia.
  Qed.
  Lemma simon_fwd : forall R k p, Forall (word w) k -> pair_ok w p ->
    pair_ok w (simon_encrypt w R k p) /\ simon_decrypt w R k (simon_encrypt w R k p) = p.
  Proof.
    intros R k p Hk Hp. unfold simon_encrypt, simon_decrypt.
    destruct (rounds_undone _ _ (pair_ok w)
      (fun c j => simon_R2 w (nth (2 * j) k 0) (nth (2 * j + 1) k 0) c)
      (fun p j => simon_unR2 w (nth (2 * j + 1) k 0) (nth (2 * j) k 0) p)
      (fun a b Ha => conj (R2_ok _ _ a (nth_word k _ Hk) (nth_word k _ Hk) Ha) (unR2_R2 _ _ a))
      (seq 0 (R / 2)) p Hp) as [H1 H2].
    destruct (Nat.odd R) eqn:O.
    - rewrite (half_odd R O). destruct (fold_left _ (seq 0 (R / 2)) p) as [c0 c1]. destruct H1 as [H0 H1]. cbn [fst snd] in *.
      split; [split; cbn [fst snd]; auto using nth_word|]. rewrite !lxor_twice. exact H2.
    - split; auto.
  Qed.
  Lemma simon_bwd : forall R k p, Forall (word w) k -> pair_ok w p ->
    pair_ok w (simon_decrypt w R k p) /\ simon_encrypt w R k (simon_decrypt w R k p) = p.
  Proof.
    intros R k p Hk Hp. unfold simon_encrypt, simon_decrypt.
    pose proof (fun p Hp => rounds_undone _ _ (pair_ok w)
      (fun p j => simon_unR2 w (nth (2 * j + 1) k 0) (nth (2 * j) k 0) p)
      (fun c j => simon_R2 w (nth (2 * j) k 0) (nth (2 * j + 1) k 0) c)
      (fun a b Ha => conj (unR2_ok _ _ a (nth_word k _ Hk) (nth_word k _ Hk) Ha) (R2_unR2 _ _ a))
      (rev (seq 0 (R / 2))) p Hp) as H.
    rewrite rev_involutive in H. destruct p as [p0 p1]. destruct Hp as [Hp0 Hp1]. cbn [fst snd] in *.
    destruct (Nat.odd R) eqn:O.
    - rewrite (half_odd R O).
      match goal with |- pair_ok w (fold_left _ _ ?q) /\ _ => destruct (H q) as [H1 H2] end.
      { split; cbn [fst snd]; auto 6 using nth_word. }
      split; [exact H1|]. rewrite H2. rewrite !lxor_twice. reflexivity.
    - apply H. split; auto.
  Qed.

  (** Key schedules give words. *)
  Lemma wspace_words : forall n key, bytes key -> length key = (n * sz)%nat -> Forall (word w) (wspace sz n key).
  Proof.
    intros n key Hb L. unfold wspace. apply Forall_rev. rewrite Hwsz. apply get_block_words; auto.
  Qed.
  Lemma nat_word : forall i : nat, Z.of_nat i < 2 ^ w -> word w (Z.of_nat i).
  Proof. intros. unfold word. lia. Qed.
  Hypothesis Hbig : 256 <= 2 ^ w.
  Lemma expand2_words : forall m i B A, (i + m < 256)%nat -> word w B -> word w A -> Forall (word w) (speck_expand2 w m i B A).
  Proof.
    induction m; intros i B A L HB HA; cbn [speck_expand2]; [auto|].
    pose proof (TF83_ok (Z.of_nat i) (B, A)) as T. destruct (TF83 w (Z.of_nat i) (B, A)) as [B' A'].
    destruct T as [HB' HA']; [apply nat_word; lia|split; auto|]. cbn [fst snd] in *.
    constructor; auto. apply IHm; auto. lia.
  Qed.
  Lemma expand3_words : forall odd m i C B A, (i + 2 * m < 256)%nat -> word w C -> word w B -> word w A ->
    Forall (word w) (speck_expand3 w odd m i C B A).
  Proof.
    induction m; intros i C B A L HC HB HA; cbn [speck_expand3]; [destruct odd; auto|].
    pose proof (TF83_ok (Z.of_nat (i + 0)) (B, A)) as T. destruct (TF83 w (Z.of_nat (i + 0)) (B, A)) as [B' A1].
    destruct T as [HB' HA1]; [apply nat_word; lia|split; auto|]. cbn [fst snd] in *.
    pose proof (TF83_ok (Z.of_nat (i + 1)) (C, A1)) as T. destruct (TF83 w (Z.of_nat (i + 1)) (C, A1)) as [C' A2].
    destruct T as [HC' HA2]; [apply nat_word; lia|split; auto|]. cbn [fst snd] in *.
    constructor; auto. constructor; auto. apply IHm; auto. lia.
  Qed.
  Lemma expand4_words : forall R rest m i D C B A, (R < 256)%nat -> (i + 3 * m < 256)%nat ->
    word w D -> word w C -> word w B -> word w A -> Forall (word w) (speck_expand4 w R rest m i D C B A).
  Proof.
    intros R rest. induction m; intros i D C B A LR L HD HC HB HA; cbn [speck_expand4].
    - destruct rest as [|[|[|]]]; auto.
      pose proof (TF83_ok (Z.of_nat (R - 2)) (B, A)) as T. destruct (TF83 w (Z.of_nat (R - 2)) (B, A)) as [B' A1].
      destruct T as [HB' HA1]; [apply nat_word; lia|split; auto|]. cbn [fst snd] in *. auto.
    - pose proof (TF83_ok (Z.of_nat (i + 0)) (B, A)) as T. destruct (TF83 w (Z.of_nat (i + 0)) (B, A)) as [B' A1].
      destruct T as [HB' HA1]; [apply nat_word; lia|split; auto|]. cbn [fst snd] in *.
      pose proof (TF83_ok (Z.of_nat (i + 1)) (C, A1)) as T. destruct (TF83 w (Z.of_nat (i + 1)) (C, A1)) as [C' A2].
      destruct T as [HC' HA2]; [apply nat_word; lia|split; auto|]. cbn [fst snd] in *.
      pose proof (TF83_ok (Z.of_nat (i + 2)) (D, A2)) as T. destruct (TF83 w (Z.of_nat (i + 2)) (D, A2)) as [D' A3].
      destruct T as [HD' HA3]; [apply nat_word; lia|split; auto|]. cbn [fst snd] in *.
      constructor; auto. constructor; auto. constructor; auto. apply IHm; auto. lia.
  Qed.
  Lemma bit_word : forall z, word w (Z.land z 1).
  Proof.
    intros. change 1 with (Z.ones 1). rewrite Z.land_ones by lia. unfold word.
    pose proof (Z.mod_pos_bound z 2 ltac:(lia)). change (2 ^ 1) with 2. lia.
  Qed.
  Lemma next_words : forall m c b key, word w c -> word w b -> Forall (word w) key -> Forall (word w) (simon_next w m c b key).
  Proof. intros. unfold simon_next. apply Forall_app. split; auto. constructor; auto 10 using nth_word. Qed.
  Lemma next4_words : forall c b key, word w c -> word w b -> Forall (word w) key -> Forall (word w) (simon_next4 w c b key).
  Proof. intros. unfold simon_next4. apply Forall_app. split; auto. constructor; auto 12 using nth_word. Qed.
  Lemma simon_expand_words : forall next, (forall b key, word w b -> Forall (word w) key -> Forall (word w) (next b key)) ->
    forall m z key, Forall (word w) key -> Forall (word w) (simon_expand next m z key).
  Proof. intros next H. induction m; intros; cbn [simon_expand]; auto using bit_word. Qed.

  (** From the word function to the block function. *)
  Lemma keyed_cipher : forall f g R k,
    (forall p, pair_ok w p -> pair_ok w (f w R k p) /\ g w R k (f w R k p) = p) ->
    (forall p, pair_ok w p -> pair_ok w (g w R k p) /\ f w R k (g w R k p) = p) ->
    block_cipher (2 * sz) (keyed w sz f (Some (R, k))) (keyed w sz g (Some (R, k))).
  Proof.
    intros f g R k H1 H2. unfold keyed. apply process_cipher; auto; rewrite <- Hwsz; apply on_pair_undoes;
      intros y z Hy Hz; unfold swapped.
    - destruct (H1 (z, y)) as [H3 H4]; [split; auto|]. destruct (f w R k (z, y)) as [a b]. destruct H3. cbn [fst snd] in *.
      exists b, a. rewrite H4. auto.
    - destruct (H2 (z, y)) as [H3 H4]; [split; auto|]. destruct (g w R k (z, y)) as [a b]. destruct H3. cbn [fst snd] in *.
      exists b, a. rewrite H4. auto.
  Qed.
  Lemma speck_keyed : forall R k, Forall (word w) k ->
    block_cipher (2 * sz) (keyed w sz speck_encrypt (Some (R, k))) (keyed w sz speck_decrypt (Some (R, k))).
  Proof. intros. apply keyed_cipher; intros; [apply speck_fwd|apply speck_bwd]; auto. Qed.
  Lemma simon_keyed : forall R k, Forall (word w) k ->
    block_cipher (2 * sz) (keyed w sz simon_encrypt (Some (R, k))) (keyed w sz simon_decrypt (Some (R, k))).
  Proof. intros. apply keyed_cipher; intros; [apply simon_fwd|apply simon_bwd]; auto. Qed.
End LightCiphers.

Ltac key_words64 := first [apply nth_word0; [lia|]; apply wspace_words; auto; lia].
Lemma speck64_cipher : forall key, bytes key -> length key = 12%nat \/ length key = 16%nat ->
  block_cipher 8 (speck64_enc key) (speck64_dec key).
Proof.
  intros key Hb L. unfold speck64_enc, speck64_dec, speck64_key.
  destruct L as [L|L]; rewrite L; apply (speck_keyed 32 4); try lia; try apply mask32.
  - apply (expand3_words 32 4); try lia; try apply mask32; key_words64.
  - apply (expand4_words 32 4); try lia; try apply mask32; key_words64.
Qed.
Lemma speck128_cipher : forall key, bytes key -> length key = 16%nat \/ length key = 24%nat \/ length key = 32%nat ->
  block_cipher 16 (speck128_enc key) (speck128_dec key).
Proof.
  intros key Hb L. unfold speck128_enc, speck128_dec, speck128_key.
  destruct L as [L|[L|L]]; rewrite L; apply (speck_keyed 64 8); try lia; try apply mask64.
  - apply (expand2_words 64 8); try lia; try apply mask64; key_words64.
  - apply (expand3_words 64 8); try lia; try apply mask64; key_words64.
  - apply (expand4_words 64 8); try lia; try apply mask64; key_words64.
Qed.
Lemma simon64_cipher : forall key, bytes key -> length key = 12%nat \/ length key = 16%nat ->
  block_cipher 8 (simon64_enc key) (simon64_dec key).
Proof.
  intros key Hb L. unfold simon64_enc, simon64_dec, simon64_key.
  destruct L as [L|L]; rewrite L; apply (simon_keyed 32 4); try lia; try apply mask32.
  - unfold simon64_key3. apply (simon_expand_words 32 4); [lia|lia|lia| |repeat (apply Forall_cons; [key_words64|]); apply Forall_nil].
    intros; apply next_words; auto; try lia; try apply mask32. unfold word; lia.
  - unfold simon64_key4. apply (simon_expand_words 32 4); [lia|lia|lia| |repeat (apply Forall_cons; [key_words64|]); apply Forall_nil].
    intros; apply next4_words; auto; try lia; try apply mask32. unfold word; lia.
Qed.
Lemma simon128_cipher : forall key, bytes key -> length key = 16%nat \/ length key = 24%nat \/ length key = 32%nat ->
  block_cipher 16 (simon128_enc key) (simon128_dec key).
Proof.
  intros key Hb L. unfold simon128_enc, simon128_dec, simon128_key.
  destruct L as [L|[L|L]]; rewrite L; apply (simon_keyed 64 8); try lia; try apply mask64.
  - unfold simon128_key2. cbv zeta. repeat (apply next_words; [lia|apply mask64|unfold word; lia|unfold word; lia|]).
    apply (simon_expand_words 64 8); [lia|lia|lia| |repeat (apply Forall_cons; [key_words64|]); apply Forall_nil].
    intros; apply next_words; auto; try lia; try apply mask64. unfold word; lia.
  - unfold simon128_key3. cbv zeta. repeat (apply next_words; [lia|apply mask64|unfold word; lia|unfold word; lia|]).
    apply (simon_expand_words 64 8); [lia|lia|lia| |repeat (apply Forall_cons; [key_words64|]); apply Forall_nil].
    intros; apply next_words; auto; try lia; try apply mask64. unfold word; lia.
  - unfold simon128_key4. cbv zeta. repeat (apply next4_words; [lia|apply mask64|unfold word; lia|unfold word; lia|]).
    apply (simon_expand_words 64 8); [lia|lia|lia| |repeat (apply Forall_cons; [key_words64|]); apply Forall_nil].
    intros; apply next4_words; auto; try lia; try apply mask64. unfold word; lia.
Qed.
