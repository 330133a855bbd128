(** Lemmas about CMAC and CBC-MAC. *)
From Coq Require Import ZArith List Lia Bool Arith.
From Verif Require Import Base Blocks HashModel HashSpec MacModel MacSpec.
Import ListNotations.
Local Open Scope Z_scope.

(** * Exclusive or of byte strings and of numbers *)
Lemma lxor_mod : forall a b n, 0 <= n -> Z.lxor a b mod 2 ^ n = Z.lxor (a mod 2 ^ n) (b mod 2 ^ n).
Proof.
  intros a b n Hn. apply Z.bits_inj'. intros k Hk. rewrite Z.lxor_spec.
  destruct (Z.lt_ge_cases k n).
  - rewrite !Z.mod_pow2_bits_low by lia. apply Z.lxor_spec.
  - rewrite !Z.mod_pow2_bits_high by lia. reflexivity.
Qed.
Lemma lxor_div : forall a b n, 0 <= n -> Z.lxor a b / 2 ^ n = Z.lxor (a / 2 ^ n) (b / 2 ^ n).
Proof. intros. rewrite <- !Z.shiftr_div_pow2 by auto. apply Z.shiftr_lxor. Qed.
Lemma le_bytes_lxor : forall n a b, le_bytes n (Z.lxor a b) = xorl (le_bytes n a) (le_bytes n b).
Proof.
  induction n; intros; [reflexivity|]. rewrite !le_bytes_S. cbn [xorl]. rewrite <- IHn. change 256 with (2 ^ 8).
  rewrite lxor_mod, lxor_div by lia. reflexivity.
Qed.
Lemma xorl_rev : forall a b, length a = length b -> rev (xorl a b) = xorl (rev a) (rev b).
Proof.
  induction a; intros b H; [reflexivity|]. destruct b as [|y b]; [discriminate|].
  cbn [length] in H. cbn [rev xorl]. rewrite xorl_app by (rewrite !rev_length; lia). rewrite IHa by lia. reflexivity.
Qed.
Lemma be_bytes_lxor : forall n a b, be_bytes n (Z.lxor a b) = xorl (be_bytes n a) (be_bytes n b).
Proof. intros. unfold be_bytes. rewrite le_bytes_lxor. apply xorl_rev. rewrite !le_bytes_length. reflexivity. Qed.

Lemma xorl_assoc : forall a b c, xorl (xorl a b) c = xorl a (xorl b c).
Proof. induction a; intros [|y b] [|z c]; cbn [xorl]; auto. rewrite Z.lxor_assoc, IHa. reflexivity. Qed.
Lemma xorl_zeros_l : forall n a, (length a <= n)%nat -> xorl (repeat 0 n) a = a.
Proof. intros. rewrite xorl_comm. apply xorl_repeat0. auto. Qed.

Lemma xor_byte_xorl : forall i v k, (i < length k)%nat -> xor_byte i v k = xorl k (upd i v (repeat 0 (length k))).
Proof.
  intros i v k H. unfold xor_byte. revert i H. induction k; intros i H; [cbn in H; lia|].
  destruct i; cbn [nth upd length repeat xorl].
  - rewrite xorl_repeat0; auto.
  - cbn [length] in H. rewrite IHk, Z.lxor_0_r by lia. reflexivity.
Qed.

(** * Doubling *)
Lemma mulu_loop_spec : forall n rk c, length rk = (2 * n)%nat -> bytes rk -> 0 <= c <= 1 ->
  let '(rk', c') := mulu_loop rk c in
  le_val rk' + 256 ^ Z.of_nat (2 * n) * c' = 2 * le_val rk + c /\ bytes rk' /\ length rk' = (2 * n)%nat /\ 0 <= c' <= 1.
Proof.
  induction n; intros rk c Hl Hb Hc.
  - destruct rk; [|discriminate]. cbn [mulu_loop le_val]. change (256 ^ Z.of_nat (2 * 0)) with 1. repeat split; auto; lia.
  - destruct rk as [|b0 [|b1 r]]; cbn [length] in Hl; try lia.
    inversion Hb as [|? ? H0 Hb']; subst. inversion Hb' as [|? ? H1 Hr]; subst. unfold byte in *.
    cbn [mulu_loop].
    assert (S0 : Z.shiftr b0 7 = b0 / 128) by (rewrite Z.shiftr_div_pow2 by lia; reflexivity).
    assert (S1 : Z.shiftr b1 7 = b1 / 128) by (rewrite Z.shiftr_div_pow2 by lia; reflexivity).
    rewrite S0, S1.
    assert (D0 := Z.div_mod b0 128 ltac:(lia)). assert (M0 := Z.mod_pos_bound b0 128 ltac:(lia)).
    assert (D1 := Z.div_mod b1 128 ltac:(lia)). assert (M1 := Z.mod_pos_bound b1 128 ltac:(lia)).
    assert (Q0 : 0 <= b0 / 128 <= 1) by lia. assert (Q1 : 0 <= b1 / 128 <= 1) by lia.
    specialize (IHn r (b1 / 128) ltac:(lia) Hr Q1). destruct (mulu_loop r (b1 / 128)) as [r' c'].
    destruct IHn as (I1 & I2 & I3 & I4).
    assert (E0 : (b0 + (b0 + c)) mod 256 = 2 * b0 + c - 256 * (b0 / 128)).
    { symmetry. apply Z.mod_unique with (b0 / 128); lia. }
    assert (E1 : (b1 + (b1 + b0 / 128)) mod 256 = 2 * b1 + b0 / 128 - 256 * (b1 / 128)).
    { symmetry. apply Z.mod_unique with (b1 / 128); lia. }
    rewrite E0, E1. split; [|split; [|split]]; auto.
    + replace (2 * S n)%nat with (S (S (2 * n))) by lia. rewrite !pow256_succ. cbn [le_val]. lia.
    + constructor; [red; lia|constructor; [red; lia|auto]].
    + cbn [length]. lia.
Qed.

Lemma cmac_poly_cases : forall B p, cmac_poly B = Some p ->
  B = 8%nat /\ p = 27 \/ B = 16%nat /\ p = 135 \/ B = 32%nat /\ p = 1061 \/ B = 64%nat /\ p = 293 \/ B = 128%nat /\ p = 524355.
Proof.
  intros B p H. unfold cmac_poly in H.
  destruct (Nat.eqb_spec B 8); [injection H as <-; auto|]. destruct (Nat.eqb_spec B 16); [injection H as <-; auto|].
  destruct (Nat.eqb_spec B 32); [injection H as <-; auto 10|]. destruct (Nat.eqb_spec B 64); [injection H as <-; auto 10|].
  destruct (Nat.eqb_spec B 128); [injection H as <-; auto 10|discriminate].
Qed.

Lemma mulu_spec : forall B p k, cmac_poly B = Some p -> length k = B -> bytes k -> mulu k = dbl B p k.
Proof.
  intros B p k Hp Hl Hb. pose proof (cmac_poly_cases B p Hp) as Hc.
  assert (exists n, B = (2 * n)%nat) as (n & Hn).
  { destruct Hc as [[-> _]|[[-> _]|[[-> _]|[[-> _]|[-> _]]]]]; [exists 4%nat|exists 8%nat|exists 16%nat|exists 32%nat|exists 64%nat]; reflexivity. }
  unfold mulu, dbl.
  assert (Hbr : bytes (rev k)) by (apply Forall_rev; auto).
  pose proof (mulu_loop_spec n (rev k) 0 ltac:(rewrite rev_length; lia) Hbr ltac:(lia)) as HL.
  destruct (mulu_loop (rev k) 0) as [rk c]. destruct HL as (L1 & L2 & L3 & L4).
  rewrite <- be_val_rev in L1.
  assert (E256 : 256 ^ Z.of_nat (2 * n) = 2 ^ (8 * Z.of_nat B)) by (rewrite Z.pow_mul_r by lia; rewrite Hn; reflexivity).
  rewrite E256 in L1. set (P := 2 ^ (8 * Z.of_nat B)) in *.
  assert (HP : 0 < P) by (unfold P; apply Z.pow_pos_nonneg; lia).
  pose proof (le_val_bounds rk L2) as Bk. rewrite L3, E256 in Bk. fold P in Bk.
  assert (Erk : rev rk = be_bytes B (le_val rk)).
  { unfold be_bytes. rewrite <- (le_bytes_val rk L2) at 1. rewrite L3, Hn. reflexivity. }
  assert (c = 0 \/ c = 1) as [->| ->] by lia.
  - cbn [Z.eqb]. rewrite Z.add_0_r in L1. rewrite (proj2 (Z.ltb_lt _ _)) by lia. rewrite Erk. f_equal. lia.
  - rewrite (proj2 (Z.ltb_ge _ _)) by lia. replace (2 * be_val k) with (le_val rk + P) by lia. cbn [Z.eqb].
    assert (Elx : Z.lxor (le_val rk + P) (P + p) = Z.lxor (le_val rk) p).
    { assert (0 <= p < P).
      { unfold P. destruct Hc as [[-> ->]|[[-> ->]|[[-> ->]|[[-> ->]|[-> ->]]]]]; cbn [Z.of_nat Pos.of_succ_nat Pos.succ]; split; try lia;
          (apply Z.lt_le_trans with (2 ^ 64); [lia|apply Z.pow_le_mono_r; lia]). }
      assert (Hor : forall x, 0 <= x < P -> x + P = Z.lor x P).
      { intros x Hx. rewrite <- Z.lxor_lor, <- Z.add_nocarry_lxor; auto;
        unfold P; apply Z.bits_inj'; intros i Hi; rewrite Z.land_spec, Z.bits_0, Z.pow2_bits_eqb by lia;
        destruct (Z.eqb_spec (8 * Z.of_nat B) i); rewrite ?andb_false_r; auto; subst i;
        rewrite (testbit_above (8 * Z.of_nat B) x) by (auto; lia); reflexivity. }
      rewrite (Z.add_comm P p), !Hor by lia. apply Z.bits_inj'. intros i Hi. rewrite !Z.lxor_spec, !Z.lor_spec. unfold P. rewrite Z.pow2_bits_eqb by lia.
      destruct (Z.eqb_spec (8 * Z.of_nat B) i).
      - subst i. rewrite !(testbit_above (8 * Z.of_nat B)) by (auto; lia). reflexivity.
      - rewrite !orb_false_r. reflexivity. }
    rewrite Elx, be_bytes_lxor, <- Erk.
    assert (Lr : length (rev rk) = B) by (rewrite rev_length; lia).
    set (q := rev rk) in *. clearbody q. rewrite Hl.
    destruct Hc as [[-> ->]|[[-> ->]|[[-> ->]|[[-> ->]|[-> ->]]]]]; cbn [Nat.eqb].
    + rewrite xor_byte_xorl by lia. rewrite Lr. f_equal.
    + rewrite xor_byte_xorl by lia. rewrite Lr. f_equal.
    + rewrite (xor_byte_xorl 30) by lia. rewrite xor_byte_xorl; rewrite xorl_length, upd_length, repeat_length, Lr; [|cbn; lia].
      rewrite xorl_assoc. f_equal.
    + rewrite (xor_byte_xorl 62) by lia. rewrite xor_byte_xorl; rewrite xorl_length, upd_length, repeat_length, Lr; [|cbn; lia].
      rewrite xorl_assoc. f_equal.
    + rewrite (xor_byte_xorl 125) by lia. 
      rewrite (xor_byte_xorl 126) by (rewrite xorl_length, upd_length, repeat_length, Lr; cbn; lia).
      rewrite (xor_byte_xorl 127) by (repeat rewrite ?xorl_length, ?upd_length, ?repeat_length; rewrite Lr; cbn; lia).
      repeat rewrite ?xorl_length, ?upd_length, ?repeat_length. rewrite Lr.
      rewrite !xorl_assoc. f_equal.
Qed.

(** * The register *)
Definition xz (B : nat) (c d : list Z) : list Z := xorl c (d ++ repeat 0 (B - length d)).
Lemma xz_nil : forall B c, length c = B -> xz B c [] = c.
Proof. intros. unfold xz. cbn [app length]. apply xorl_repeat0. lia. Qed.
Lemma xz_full : forall B c d, length d = B -> xz B c d = xorl c d.
Proof. intros. unfold xz. rewrite H, Nat.sub_diag. cbn [repeat]. rewrite app_nil_r. reflexivity. Qed.
Lemma xz_length : forall B c d, length c = B -> (length d <= B)%nat -> length (xz B c d) = B.
Proof. intros. unfold xz. rewrite xorl_length, app_length, repeat_length. lia. Qed.

Lemma xor_at_xz : forall B c x y, length c = B -> (length x + length y <= B)%nat ->
  xor_at (length x) y (xz B c x) = xz B c (x ++ y).
Proof.
  intros B c x y Hc Hl. unfold xor_at, write.
  assert (Lx : length (xz B c x) = B) by (apply xz_length; lia).
  assert (Ls : length (firstn (length y) (skipn (length x) (xz B c x))) = length y) by (rewrite firstn_length, skipn_length; lia).
  rewrite xorl_length, Ls, Nat.min_id. unfold xz.
  rewrite app_length, <- app_assoc.
  rewrite !xorl_firstn, !xorl_skipn, !xorl_firstn.
  rewrite <- (firstn_skipn (length x) c) at 4.
  rewrite <- (firstn_skipn (length y) (skipn (length x) c)) at 2.
  rewrite skipn_skipn_add.
  assert (A1 : length (firstn (length x) c) = length x) by (rewrite firstn_length; lia).
  assert (A2 : length (firstn (length y) (skipn (length x) c)) = length y) by (rewrite firstn_length, skipn_length; lia).
  rewrite !xorl_app by congruence.
  rewrite firstn_app_exact, skipn_app_exact. f_equal. f_equal.
  - rewrite xorl_assoc. f_equal. rewrite xorl_comm. rewrite xorl_trim. rewrite firstn_firstn.
    replace (Nat.min (length y) (length y)) with (length y) by lia.
    rewrite <- xorl_trim. apply xorl_repeat0. lia.
  - rewrite (Nat.add_comm (length y) (length x)). f_equal. rewrite Nat.add_comm at 1.
    rewrite <- skipn_skipn_add, skipn_app_exact. rewrite skipn_repeat. f_equal. lia.
Qed.

Lemma xor_at_byte : forall i b reg, (i < length reg)%nat -> xor_byte i b reg = xor_at i [b] reg.
Proof.
  intros i b reg H. unfold xor_byte, xor_at, write.
  assert (skipn i reg = nth i reg 0 :: skipn (S i) reg) as E.
  { pose proof (nth_split_at i 0 reg H) as X. rewrite X at 1. rewrite skipn_app_ge by (rewrite firstn_length; lia).
    rewrite firstn_length. replace (i - Nat.min i (length reg))%nat with 0%nat by lia. reflexivity. }
  rewrite E. cbn [length firstn xorl app]. rewrite upd_split by auto. rewrite Nat.add_1_r. reflexivity.
Qed.

Lemma blocks_trunc : forall n (l : list Z), n <> 0%nat -> blocks n (firstn (length l - length l mod n) l) = blocks n l.
Proof.
  intros n l Hn. pose proof (Nat.div_mod (length l) n Hn).
  assert (Hc : length (concat (blocks n l)) = (length l - length l mod n)%nat).
  { rewrite (length_concat_blocks n) by (apply blocks_forall; auto). rewrite blocks_count by auto. lia. }
  rewrite (blocks_rest n l Hn) at 3. rewrite <- Hc, firstn_app_exact. apply blocks_concat; auto. apply blocks_forall; auto.
Qed.

Section Macs.
  Variable E : list Z -> list Z -> list Z.
  Variable B : nat.
  Hypothesis HB : B <> 0%nat.
  (** The cipher maps blocks to blocks. *)
  Hypothesis HE : forall k b, length b = B -> length (E k b) = B /\ bytes (E k b).

  Section Keyed.
    Variable k : list Z.
    Notation e := (E k).
    Definition cstep (c b : list Z) : list Z := e (xorl c b).
    Definition chn (m : list Z) : list Z := chain e B (blocks B m).

    Lemma fold_length : forall bs c, length c = B -> Forall (fun b => length b = B) bs -> length (fold_left cstep bs c) = B.
    Proof.
      induction bs; intros c Hc Hb; [exact Hc|]. inversion Hb; subst. cbn [fold_left]. apply IHbs; auto.
      apply HE. rewrite xorl_length. lia.
    Qed.
    Lemma chn_length : forall m, length (chn m) = B.
    Proof. intros. apply fold_length; [apply repeat_length|apply blocks_forall; auto]. Qed.
    Lemma chn_app : forall m d, (length m mod B = 0)%nat -> chn (m ++ d) = fold_left cstep (blocks B d) (chn m).
    Proof. intros. unfold chn, chain. rewrite blocks_app_mult by auto. apply fold_left_app. Qed.
    Lemma chn_block : forall m b, (length m mod B = 0)%nat -> length b = B -> chn (m ++ b) = e (xorl (chn m) b).
    Proof.
      intros. rewrite chn_app by auto. rewrite <- (app_nil_r b), blocks_app_block, blocks_nil by auto.
      rewrite app_nil_r. reflexivity.
    Qed.

    Lemma apb_xor_spec : forall fuel reg input len, (len <= length input)%nat -> (len <= fuel)%nat -> length reg = B ->
      apb_xor fuel e B reg input len = (fold_left cstep (blocks B (firstn len input)) reg, (len mod B)%nat).
    Proof.
      induction fuel; intros reg input len Hl Hf Hr.
      { assert (len = 0)%nat by lia. subst. cbn [apb_xor firstn]. rewrite blocks_nil, Nat.mod_0_l by auto. reflexivity. }
      cbn [apb_xor]. destruct (Nat.leb_spec B len).
      - assert (Lf : length (firstn B input) = B) by (rewrite firstn_length; lia).
        rewrite IHfuel; [|rewrite skipn_length; lia|lia|apply HE; rewrite xorl_length; lia].
        rewrite <- mod_minus by auto. f_equal.
        replace (firstn len input) with (firstn B input ++ firstn (len - B) (skipn B input)).
        2:{ rewrite <- firstn_add. f_equal. lia. }
        rewrite blocks_app_block by auto. cbn [fold_left]. unfold cstep at 3. rewrite (xorl_comm reg). reflexivity.
      - rewrite blocks_small, Nat.mod_small by (try rewrite firstn_length; lia). reflexivity.
    Qed.

    (** ** CMAC *)
    Record cmrep (s : cmac) (m : list Z) : Prop := {
      cr_e : cm_e s = e;
      cr_k1 : cm_k1 s = mulu (e (repeat 0 B));
      cr_k2 : cm_k2 s = mulu (cm_k1 s);
      cr_ex : exists pre lst, m = pre ++ lst /\ (length pre mod B = 0)%nat /\ cm_counter s = length lst /\ (length lst <= B)%nat /\
        (lst = [] -> m = []) /\ cm_reg s = xz B (chn pre) lst }.

    Lemma cmrep_zero : forall s, cm_e s = e -> cm_k1 s = mulu (e (repeat 0 B)) -> cm_k2 s = mulu (cm_k1 s) ->
      cm_counter s = 0%nat -> cm_reg s = repeat 0 B -> cmrep s [].
    Proof.
      intros s H1 H2 H3 H4 H5. constructor; auto. exists [], []. repeat split; auto.
      - cbn. apply Nat.mod_0_l. auto.
      - cbn [length]. lia.
      - rewrite xz_nil by apply chn_length. rewrite H5. unfold chn. rewrite blocks_nil by auto. reflexivity.
    Qed.

    (** The second half of Update: [pre] has been absorbed, the counter is zero. *)
    Lemma cm_tail : forall s pre input, cm_e s = e -> (length pre mod B = 0)%nat -> input <> [] ->
      exists pre2 lst, pre ++ input = pre2 ++ lst /\ (length pre2 mod B = 0)%nat /\ (0 < length lst <= B)%nat /\
      (if Nat.ltb B (length input) then
          let '(reg, lo) := apb_xor (length input) (cm_e s) B (chn pre) input (length input - 1) in
          (reg, skipn (length input - (1 + lo)) input)
        else (chn pre, input)) = (chn pre2, lst).
    Proof.
      intros s pre input He Hp Hi. assert (Hn : (0 < length input)%nat) by (destruct input; [congruence|cbn; lia]).
      destruct (Nat.ltb_spec B (length input)).
      - rewrite He, apb_xor_spec by (try apply chn_length; lia).
        set (n1 := (length input - 1)%nat) in *. pose proof (Nat.mod_upper_bound n1 B HB). pose proof (Nat.mod_le n1 B HB).
        set (t := (n1 - n1 mod B)%nat).
        assert (Ht : (t mod B = 0)%nat).
        { unfold t. pose proof (Nat.div_mod n1 B HB) as D. replace (n1 - n1 mod B)%nat with ((n1 / B) * B)%nat by lia. apply Nat.mod_mul; auto. }
        replace (length input - (1 + n1 mod B))%nat with t by lia.
        exists (pre ++ firstn t input), (skipn t input). split; [rewrite <- app_assoc, firstn_skipn; auto|]. split.
        { rewrite app_length, firstn_length. replace (Nat.min t (length input)) with t by lia.
          rewrite <- Nat.add_mod_idemp_l, Hp by auto. exact Ht. }
        split; [rewrite skipn_length; lia|]. f_equal. rewrite chn_app by auto. f_equal.
        rewrite <- (blocks_trunc B (firstn n1 input)) by auto. rewrite firstn_length.
        replace (Nat.min n1 (length input)) with n1 by lia. fold t. rewrite firstn_firstn. f_equal. f_equal. lia.
      - exists pre, input. repeat split; auto; lia.
    Qed.

    Lemma cm_update_spec : forall s m d, cmrep s m -> cmrep (cm_update B s d) (m ++ d).
    Proof.
      intros s m d [He H1 H2 (pre & lst & Em & Hp & Hc & Hl & Hne & Hr)]. unfold cm_update.
      destruct (Nat.eqb_spec (length d) 0) as [E0|E0].
      { assert (d = []) by (destruct d; auto; discriminate). subst d. rewrite app_nil_r. constructor; auto.
        exists pre, lst. auto 10. }
      assert (Hd : d <> []) by (intros ->; auto).
      (* final assembly *)
      assert (Fin : forall pre' input, pre' ++ input = m ++ d -> (length pre' mod B = 0)%nat -> input <> [] ->
        cmrep (let '(reg2, input2) :=
          if Nat.ltb B (length input) then
            let '(reg, lo) := apb_xor (length input) (cm_e s) B (chn pre') input (length input - 1) in
            (reg, skipn (length input - (1 + lo)) input)
          else (chn pre', input) in
          if Nat.ltb 0 (length input2) then mkCM (cm_e s) (xor_at 0 input2 reg2) (cm_k1 s) (cm_k2 s) (0 + length input2)
          else mkCM (cm_e s) reg2 (cm_k1 s) (cm_k2 s) 0) (m ++ d)).
      { intros pre' input Eq Hp' Hin. destruct (cm_tail s pre' input He Hp' Hin) as (pre2 & l2 & X1 & X2 & X3 & ->).
        rewrite (proj2 (Nat.ltb_lt _ _)) by lia. constructor; auto. exists pre2, l2. cbn [cm_counter cm_reg].
        rewrite <- Eq. repeat split; auto; try lia.
        - intros ->. cbn in X3. lia.
        - change 0%nat with (@length Z []). rewrite <- (xz_nil B (chn pre2)) at 1 by apply chn_length.
          rewrite xor_at_xz by (try apply chn_length; cbn; lia). reflexivity. }
      destruct (Nat.ltb_spec 0 (cm_counter s)) as [Hpos|Hz].
      - set (len := Nat.min (B - cm_counter s) (length d)).
        assert (Lf : length (firstn len d) = len) by (rewrite firstn_length; lia).
        assert (Ex : xor_at (cm_counter s) (firstn len d) (cm_reg s) = xz B (chn pre) (lst ++ firstn len d)).
        { rewrite Hr, Hc. apply xor_at_xz; [apply chn_length|lia]. }
        rewrite Ex. destruct (Nat.eqb_spec (cm_counter s + len) B) as [Eb|Eb]; cbn [andb].
        + destruct (Nat.ltb_spec 0 (length (skipn len d))) as [Hs|Hs].
          * assert (Lb : length (lst ++ firstn len d) = B) by (rewrite app_length; lia).
            rewrite He, xz_full, <- chn_block by auto. rewrite <- He.
            apply Fin.
            { rewrite Em, <- !app_assoc, firstn_skipn. reflexivity. }
            { rewrite app_length, Lb, <- Nat.add_mod_idemp_l, Hp by auto. cbn. apply Nat.mod_same; auto. }
            { intros C. rewrite C in Hs. cbn in Hs. lia. }
          * assert (Es : skipn len d = []) by (destruct (skipn len d); auto; cbn in Hs; lia). rewrite Es. cbn [length Nat.ltb Nat.leb].
            assert (Ed : firstn len d = d) by (rewrite <- (firstn_skipn len d) at 2; rewrite Es, app_nil_r; reflexivity).
            rewrite Ed in *. replace (Nat.ltb B 0) with false by (symmetry; apply Nat.ltb_ge; lia).
            constructor; auto. exists pre, (lst ++ d). cbn [cm_counter cm_reg]. rewrite Em, app_assoc. repeat split; auto.
            { rewrite app_length. lia. } { rewrite app_length. lia. }
            { intros C. apply app_eq_nil in C. destruct C as [_ C]. congruence. }
        + assert (Es : skipn len d = []). { apply skipn_all2. lia. }
          rewrite Es. cbn [length]. replace (Nat.ltb B 0) with false by (symmetry; apply Nat.ltb_ge; lia). cbn [Nat.ltb Nat.leb length].
          assert (Ed : firstn len d = d) by (rewrite <- (firstn_skipn len d) at 2; rewrite Es, app_nil_r; reflexivity).
          rewrite Ed in *.
          constructor; auto. exists pre, (lst ++ d). cbn [cm_counter cm_reg]. rewrite Em, app_assoc. repeat split; auto.
          { rewrite app_length. lia. } { rewrite app_length. lia. }
          { intros C. apply app_eq_nil in C. destruct C as [_ C]. congruence. }
      - assert (lst = []) by (destruct lst; auto; cbn in Hc; lia). subst lst. specialize (Hne eq_refl). 
        rewrite Hc. cbn [length]. rewrite Hr, xz_nil by apply chn_length. apply Fin; auto.
        rewrite Em, app_nil_r. reflexivity.
    Qed.

    Variable p : Z.
    Hypothesis Hp : cmac_poly B = Some p.

    Lemma mulu_key : mulu (e (repeat 0 B)) = dbl B p (e (repeat 0 B)) /\
      mulu (mulu (e (repeat 0 B))) = dbl B p (dbl B p (e (repeat 0 B))).
    Proof.
      destruct (HE k (repeat 0 B) (repeat_length _ _)) as [L1 L2].
      assert (M1 : mulu (e (repeat 0 B)) = dbl B p (e (repeat 0 B))) by (apply mulu_spec; auto).
      split; auto. rewrite M1. apply mulu_spec; auto; unfold dbl; [apply be_bytes_length|apply be_bytes_bytes].
    Qed.

    Lemma cm_final_spec : forall s m n, cmrep s m -> (n <= B)%nat ->
      snd (cm_final B s n) = Some (firstn n (cmac_spec e B p m)) /\ cmrep (fst (cm_final B s n)) [].
    Proof.
      intros s m n [He H1 H2 (pre & lst & Em & Hpre & Hc & Hl & Hne & Hr)] Hn. unfold cm_final.
      rewrite (proj2 (Nat.ltb_ge _ _)) by auto. split; [|apply cmrep_zero; auto]. cbn [snd]. f_equal. f_equal.
      destruct mulu_key as [K1 K2]. rewrite H2, H1, K2, K1, He.
      unfold cmac_spec.
      set (k1 := dbl B p (e (repeat 0 B))). set (k2 := dbl B p k1).
      assert (Lk1 : length k1 = B) by apply be_bytes_length. assert (Lk2 : length k2 = B) by apply be_bytes_length.
      apply Nat.mod_divides in Hpre as Hq; auto. destruct Hq as (q & Hq).
      assert (Hdiv : ((length m - 1) / B * B = length pre)%nat).
      { destruct lst as [|x lst].
        - specialize (Hne eq_refl). rewrite app_nil_r in Em. subst m. subst pre. cbn [length Nat.sub]. rewrite Nat.div_0_l by auto. reflexivity.
        - rewrite Em, app_length. cbn [length] in *.
          replace (length pre + S (length lst) - 1)%nat with (length lst + q * B)%nat by lia.
          rewrite Nat.div_add, Nat.div_small by lia. lia. }
      rewrite Hdiv, Em, firstn_app_exact, skipn_app_exact, <- Hc.
      unfold chain. rewrite fold_left_app. fold (chain e B (blocks B pre)). fold (chn pre). cbn [fold_left].
      destruct (Nat.ltb_spec (cm_counter s) B).
      - rewrite (proj2 (Nat.eqb_neq _ _)) by lia.
        assert (Lr : length (cm_reg s) = B) by (rewrite Hr; apply xz_length; [apply chn_length|lia]).
        rewrite xor_at_byte by lia.
        assert (Ex : xor_at (cm_counter s) [128] (cm_reg s) = xz B (chn pre) (lst ++ [128])).
        { rewrite Hr, Hc. apply xor_at_xz; [apply chn_length|cbn [length]; lia]. }
        assert (Lx : length (xz B (chn pre) (lst ++ [128])) = B) by (apply xz_length; [apply chn_length|rewrite app_length; cbn [length]; lia]).
        rewrite Ex, apb_xor_spec by lia. cbn [fst]. rewrite firstn_all2 by lia.
        rewrite <- (app_nil_r k2) at 1. rewrite blocks_app_block, blocks_nil by auto. cbn [fold_left]. unfold cstep, xz. rewrite xorl_assoc. f_equal. f_equal. f_equal.
        rewrite <- app_assoc, app_length. cbn [app length]. f_equal. f_equal. f_equal. lia.
      - assert (Ec : cm_counter s = B) by lia. rewrite (proj2 (Nat.eqb_eq _ _)) by auto.
        assert (Lr : length (cm_reg s) = B) by (rewrite Hr; apply xz_length; [apply chn_length|lia]).
        rewrite apb_xor_spec by lia. cbn [fst]. rewrite firstn_all2 by lia.
        rewrite <- (app_nil_r k1) at 1. rewrite blocks_app_block, blocks_nil by auto. cbn [fold_left]. unfold cstep.
        rewrite Hr, xz_full, xorl_assoc by lia. reflexivity.
    Qed.
  End Keyed.

  Lemma cm_setkey_spec : forall k, cmrep k (cm_setkey E B k) [].
  Proof. intros. apply cmrep_zero; reflexivity. Qed.

  Lemma cm_run_spec : forall p ops s k m, cmac_poly B = Some p -> cmrep k s m ->
    cm_run E B s ops = spec_mrun (fun k m => cmac_spec (E k) B p m) B (k, m) ops.
  Proof.
    intros p ops s k m Hp. revert s k m. induction ops as [|op ops IH]; intros s k m H; [reflexivity|].
    cbn [cm_run spec_mrun]. destruct op as [d|n| |k']; cbn [cm_step spec_mstep].
    - f_equal. apply IH. apply cm_update_spec; auto.
    - destruct (Nat.leb_spec n B).
      + destruct (cm_final_spec k p Hp s m n H H0) as [X1 X2]. destruct (cm_final B s n) as [s' o]. cbn [fst snd] in X1, X2.
        subst o. f_equal. apply IH; auto.
      + unfold cm_final. rewrite (proj2 (Nat.ltb_lt _ _)) by auto. f_equal. apply IH; auto.
    - f_equal. apply IH. apply (cm_final_spec k p Hp s m 0 H). lia.
    - f_equal. apply IH. apply cm_setkey_spec.
  Qed.

  (** ** CBC-MAC *)
  Record cbrep (k : list Z) (s : cbcmac) (m : list Z) : Prop := {
    br_e : cb_e s = E k;
    br_c : cb_counter s = length (rest B m);
    br_r : cb_reg s = xz B (chn k m) (rest B m) }.

  Lemma cbrep_zero : forall k s, cb_e s = E k -> cb_counter s = 0%nat -> cb_reg s = repeat 0 B -> cbrep k s [].
  Proof.
    intros k s H1 H2 H3. constructor; auto; rewrite rest_nil by auto; auto.
    rewrite xz_nil by apply chn_length. rewrite H3. unfold chn. rewrite blocks_nil by auto. reflexivity.
  Qed.

  Lemma cb_byte_spec : forall k s m b, cbrep k s m -> cbrep k (cb_byte B s b) (m ++ [b]).
  Proof.
    intros k s m b [He Hc Hr]. unfold cb_byte. cbn [cb_counter].
    pose proof (rest_lt B m HB) as Hlt.
    assert (Ex : xor_byte (cb_counter s) b (cb_reg s) = xz B (chn k m) (rest B m ++ [b])).
    { rewrite xor_at_byte by (rewrite Hr, xz_length; [lia|apply chn_length|lia]).
      rewrite Hr, Hc. apply xor_at_xz; [apply chn_length|cbn [length]; lia]. }
    rewrite Ex.
    assert (Hch : chn k (m ++ [b]) = fold_left (cstep k) (blocks B (rest B m ++ [b])) (chn k m)).
    { unfold chn, chain. rewrite blocks_app by auto. apply fold_left_app. }
    destruct (Nat.eqb_spec (S (cb_counter s)) B) as [Eb|Eb].
    - assert (Lb : length (rest B m ++ [b]) = B) by (rewrite app_length; cbn [length]; lia).
      assert (Er : rest B (m ++ [b]) = []).
      { rewrite rest_app by auto. rewrite <- (app_nil_r (rest B m ++ [b])), rest_app_block, rest_nil by auto. reflexivity. }
      constructor; unfold cb_process; cbn [cb_e cb_counter cb_reg]; auto.
      + rewrite Er. reflexivity.
      + rewrite Er, xz_nil by apply chn_length. rewrite He, xz_full by auto.
        rewrite Hch. rewrite <- (app_nil_r (rest B m ++ [b])) at 2. rewrite blocks_app_block, blocks_nil by auto. reflexivity.
    - assert (Lb : (length (rest B m ++ [b]) < B)%nat) by (rewrite app_length; cbn [length]; lia).
      assert (Er : rest B (m ++ [b]) = rest B m ++ [b]) by (rewrite rest_app by auto; apply rest_small; auto).
      constructor; cbn [cb_e cb_counter cb_reg]; auto.
      + rewrite Er, app_length. cbn [length]. lia.
      + rewrite Er, Hch, blocks_small by auto. reflexivity.
  Qed.
  Lemma cb_bytes_spec : forall d k s m, cbrep k s m -> cbrep k (fold_left (cb_byte B) d s) (m ++ d).
  Proof.
    induction d as [|b d IH]; intros k s m H; [rewrite app_nil_r; exact H|]. cbn [fold_left].
    replace (m ++ b :: d) with ((m ++ [b]) ++ d) by (rewrite <- app_assoc; reflexivity). apply IH. apply cb_byte_spec; auto.
  Qed.
  Lemma cb_fill_spec : forall d k s m, cbrep k s m ->
    exists taken, d = taken ++ snd (cb_fill B s d) /\ cbrep k (fst (cb_fill B s d)) (m ++ taken) /\
      (snd (cb_fill B s d) = [] \/ cb_counter (fst (cb_fill B s d)) = 0%nat).
  Proof.
    induction d as [|b d IH]; intros k s m H; cbn [cb_fill].
    { exists []. cbn [fst snd app]. rewrite app_nil_r. auto. }
    destruct (Nat.eqb_spec (cb_counter s) 0).
    - exists []. rewrite app_nil_r. auto.
    - destruct (IH k (cb_byte B s b) (m ++ [b]) (cb_byte_spec k s m b H)) as (t & T1 & T2 & T3).
      exists (b :: t). rewrite <- app_assoc in T2. cbn [app] in *. rewrite <- T1. auto.
  Qed.
  Lemma cb_update_spec : forall k s m d, cbrep k s m -> cbrep k (cb_update B s d) (m ++ d).
  Proof.
    intros k s m d H. unfold cb_update. destruct (cb_fill_spec d k s m H) as (t & T1 & T2 & T3).
    destruct (cb_fill B s d) as [s1 d1]. cbn [fst snd] in *.
    destruct (Nat.leb_spec B (length d1)) as [L|L].
    - destruct T3 as [->|T3]; [cbn in L; lia|]. destruct T2 as [He Hc Hr].
      assert (Er : rest B (m ++ t) = []) by (destruct (rest B (m ++ t)); auto; cbn in Hc; lia).
      rewrite Er in Hr. rewrite xz_nil in Hr by apply chn_length.
      assert (Hmod : (length (m ++ t) mod B = 0)%nat) by (rewrite <- rest_length, Er by auto; reflexivity).
      rewrite He, apb_xor_spec by (try (rewrite Hr; apply chn_length); lia).
      rewrite firstn_all2 by lia. pose proof (Nat.mod_le (length d1) B HB).
      set (u := (length d1 - length d1 mod B)%nat).
      assert (Hu : (u mod B = 0)%nat).
      { unfold u. pose proof (Nat.div_mod (length d1) B HB) as D. replace (length d1 - length d1 mod B)%nat with ((length d1 / B) * B)%nat by lia. apply Nat.mod_mul; auto. }
      replace (m ++ d) with (((m ++ t) ++ firstn u d1) ++ skipn u d1) by (rewrite <- app_assoc, firstn_skipn, T1, app_assoc; reflexivity).
      apply cb_bytes_spec.
      assert (Hmod2 : (length ((m ++ t) ++ firstn u d1) mod B = 0)%nat).
      { rewrite app_length, firstn_length. replace (Nat.min u (length d1)) with u by lia.
        rewrite <- Nat.add_mod_idemp_l, Hmod by auto. exact Hu. }
      constructor; cbn [cb_e cb_counter cb_reg]; auto; rewrite (rest_mult B) by auto.
      + auto.
      + rewrite xz_nil by apply chn_length. rewrite chn_app by auto. unfold u. rewrite blocks_trunc, Hr by auto. reflexivity.
    - replace (m ++ d) with ((m ++ t) ++ d1) by (rewrite <- app_assoc, <- T1; reflexivity). apply cb_bytes_spec. exact T2.
  Qed.
  Lemma cb_final_spec : forall k s m n, cbrep k s m -> (n <= B)%nat ->
    snd (cb_final B s n) = Some (firstn n (cbcmac_spec (E k) B m)) /\ cbrep k (fst (cb_final B s n)) [].
  Proof.
    intros k s m n [He Hc Hr] Hn. unfold cb_final. rewrite (proj2 (Nat.ltb_ge _ _)) by auto. cbn [fst snd].
    pose proof (rest_lt B m HB) as Hlt. pose proof (rest_length B m HB) as Hrl.
    assert (G : cb_reg (if Nat.eqb (cb_counter s) 0 then s else cb_process s) = cbcmac_spec (E k) B m).
    { unfold cbcmac_spec. rewrite <- Hrl. fold (chn k (m ++ repeat 0 ((B - length (rest B m)) mod B))).
      destruct (Nat.eqb_spec (cb_counter s) 0) as [Z0|Z0].
      - rewrite Hc in Z0. rewrite Z0, Nat.sub_0_r, Nat.mod_same by auto. cbn [repeat]. rewrite app_nil_r, Hr.
        assert (Er : rest B m = []) by (destruct (rest B m); auto; discriminate). rewrite Er. apply xz_nil, chn_length.
      - unfold cb_process. cbn [cb_reg]. rewrite He, Hr, Nat.mod_small by lia.
        unfold chn, chain. rewrite blocks_app, fold_left_app by auto.
        rewrite <- (app_nil_r (rest B m ++ repeat 0 _)), blocks_app_block, blocks_nil; auto.
        rewrite app_length, repeat_length. lia. }
    split; [congruence|]. apply cbrep_zero; cbn [cb_e cb_counter cb_reg]; auto; destruct (Nat.eqb_spec (cb_counter s) 0); auto.
  Qed.
  Lemma cb_run_spec : forall ops s k m, cbrep k s m ->
    cb_run E B s ops = spec_mrun (fun k m => cbcmac_spec (E k) B m) B (k, m) ops.
  Proof.
    induction ops as [|op ops IH]; intros s k m H; [reflexivity|].
    cbn [cb_run spec_mrun]. destruct op as [d|n| |k']; cbn [cb_step spec_mstep].
    - f_equal. apply IH. apply cb_update_spec; auto.
    - destruct (Nat.leb_spec n B).
      + destruct (cb_final_spec k s m n H H0) as [X1 X2]. destruct (cb_final B s n) as [s' o]. cbn [fst snd] in X1, X2.
        subst o. f_equal. apply IH; auto.
      + unfold cb_final. rewrite (proj2 (Nat.ltb_lt _ _)) by auto. f_equal. apply IH; auto.
    - f_equal. apply IH. apply (cb_final_spec k s m 0 H). lia.
    - f_equal. apply IH. apply cbrep_zero; reflexivity.
  Qed.
End Macs.
