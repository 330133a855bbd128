From Coq Require Import ZArith List Lia Bool Arith.
From Verif Require Import Base CodecModel CodecSpec.
Import ListNotations.
Local Open Scope Z_scope.

(* ---------------- specification side ---------------- *)

Lemma bit_field_bitsval : forall f w start, bit_field f start w = bitsval (map f (seq start w)).
Proof.
  induction w; intros; simpl; auto. rewrite map_length, seq_length, IHw. reflexivity.
Qed.

Lemma stream_bits_flat : forall v l c, (0 < v)%nat -> (v * length l <= c)%nat ->
  map (stream_bit v l) (seq 0 c) = flat_map (bits v) l ++ repeat false (c - v * length l).
Proof.
  intros v l c Hv Hc. apply nth_ext_eq with (d := false).
  - rewrite map_length, seq_length, app_length, flat_bits_length, repeat_length. lia.
  - intros i Hi. rewrite map_length, seq_length in Hi.
    rewrite nth_indep with (d' := stream_bit v l 0%nat) by (rewrite map_length, seq_length; auto).
    rewrite map_nth, seq_nth by auto. unfold stream_bit at 1. simpl.
    destruct (Nat.ltb_spec i (v * length l)).
    + rewrite app_nth1 by (rewrite flat_bits_length; auto). rewrite flat_bits_nth by auto. reflexivity.
    + rewrite app_nth2 by (rewrite flat_bits_length; lia). rewrite flat_bits_length.
      rewrite nth_repeat_lt by lia. reflexivity.
Qed.

Lemma stream_bits_prefix : forall v l c, (0 < v)%nat -> (c <= v * length l)%nat ->
  map (stream_bit v l) (seq 0 c) = firstn c (flat_map (bits v) l).
Proof.
  intros v l c Hv Hc.
  assert (E := stream_bits_flat v l (v * length l) Hv (le_n _)).
  rewrite Nat.sub_diag in E. simpl in E. rewrite app_nil_r in E. rewrite <- E.
  replace (v * length l)%nat with (c + (v * length l - c))%nat by lia.
  rewrite seq_app, map_app, firstn_app_le by (rewrite map_length, seq_length; lia).
  rewrite firstn_all2; auto. rewrite map_length, seq_length; lia.
Qed.

Lemma recut_length : forall v w c l, length (recut v w c l) = c.
Proof. intros. unfold recut. rewrite map_length, seq_length. reflexivity. Qed.

Lemma recut_range : forall v w c l, Forall (fun x => 0 <= x < 2 ^ Z.of_nat w) (recut v w c l).
Proof.
  intros. unfold recut. rewrite Forall_map. apply Forall_forall. intros j _.
  rewrite bit_field_bitsval. split. apply bitsval_nonneg.
  eapply Z.lt_le_trans. apply bitsval_bound. rewrite map_length, seq_length. lia.
Qed.

Lemma recut_flat : forall v w c l,
  flat_map (bits w) (recut v w c l) = map (stream_bit v l) (seq 0 (c * w)).
Proof.
  intros. unfold recut.
  assert (G : forall c s, flat_map (bits w) (map (fun j => bit_field (stream_bit v l) (j * w) w) (seq s c))
            = map (stream_bit v l) (seq (s * w) (c * w))).
  { clear c. induction c; intros s; simpl; auto.
    rewrite seq_app, map_app. f_equal.
    - rewrite bit_field_bitsval.
      rewrite <- bits_bitsval. rewrite map_length, seq_length. reflexivity.
    - rewrite IHc. f_equal. f_equal. lia. }
  apply (G c 0%nat).
Qed.

Lemma recut_unique : forall v w c l D,
  Forall (fun x => 0 <= x < 2 ^ Z.of_nat w) D -> length D = c ->
  flat_map (bits w) D = map (stream_bit v l) (seq 0 (c * w)) -> D = recut v w c l.
Proof.
  intros. apply (flat_bits_inj w); auto.
  - apply recut_range.
  - rewrite recut_length; auto.
  - rewrite recut_flat; auto.
Qed.

(* ---------------- encoder ---------------- *)

Definition Rb (w : nat) (s : bn_state) : list bool :=
  flat_map (bits w) (firstn (bn_byte s) (bn_buf s)) ++ firstn (bn_bit s) (bits w (nth (bn_byte s) (bn_buf s) 0)).

Record binv (w B : nat) (s : bn_state) : Prop := {
  bi_len : length (bn_buf s) = B;
  bi_rng : Forall (fun x => 0 <= x < 2 ^ Z.of_nat w) (bn_buf s);
  bi_bit : (bn_bit s < w)%nat;
  bi_byte : (bn_byte s <= B)%nat;
  bi_low : forall k, (k < w - bn_bit s)%nat -> Z.testbit (nth (bn_byte s) (bn_buf s) 0) (Z.of_nat k) = false;
  bi_zero : forall i, (bn_byte s < i)%nat -> nth i (bn_buf s) 0 = 0 }.

Lemma Rb_length : forall w B s, binv w B s -> length (Rb w s) = (w * bn_byte s + bn_bit s)%nat.
Proof.
  intros w B s H. destruct H. unfold Rb.
  rewrite app_length, flat_bits_length, !firstn_length, bits_length, !Nat.min_l; lia.
Qed.

Lemma Forall_nth_default : forall (P : Z -> Prop) l i, Forall P l -> P 0 -> P (nth i l 0).
Proof.
  intros. destruct (Nat.lt_ge_cases i (length l)).
  - rewrite Forall_forall in H. apply H. apply nth_In; auto.
  - rewrite nth_overflow; auto.
Qed.

Lemma or_bits_enc : forall n t o b, (t <= n)%nat -> (n <= 8)%nat -> 0 <= b < 256 ->
  (forall k, (k < t)%nat -> Z.testbit o (Z.of_nat k) = false) ->
  bits n (Z.lor o (Z.shiftr b (Z.of_nat (8 - t)))) = firstn (n - t) (bits n o) ++ firstn t (bits 8 b).
Proof.
  intros n t o b Ht Hn Hb Hz. apply nth_ext_eq with (d := false).
  - rewrite app_length, !firstn_length, !bits_length. lia.
  - intros i Hi. rewrite bits_length in Hi. rewrite bits_nth by auto.
    rewrite Z.lor_spec, Z.shiftr_spec by lia.
    destruct (Nat.lt_ge_cases i (n - t)).
    + rewrite app_nth1 by (rewrite firstn_length, bits_length; lia).
      rewrite nth_firstn_lt, bits_nth by lia.
      rewrite (testbit_byte b) by lia. apply orb_false_r.
    + rewrite app_nth2; rewrite firstn_length, bits_length, Nat.min_l by lia; auto.
      rewrite nth_firstn_lt, bits_nth by lia.
      rewrite Hz by lia. rewrite orb_false_l. f_equal. lia.
Qed.

Lemma testbit_shl_land : forall b t k, 0 <= t -> 0 <= k ->
  Z.testbit (Z.land (Z.shiftl b t) 255) k = if (t <=? k) && (k <? 8) then Z.testbit b (k - t) else false.
Proof.
  intros. change 255 with (Z.ones 8). rewrite Z.land_spec, Z.shiftl_spec by lia.
  destruct (Z.ltb_spec k 8).
  - rewrite Z.ones_spec_low by lia. rewrite andb_true_r.
    destruct (Z.leb_spec t k); simpl; auto. apply Z.testbit_neg_r. lia.
  - rewrite Z.ones_spec_high by lia. rewrite !andb_false_r. reflexivity.
Qed.

Lemma bits8_shl : forall b t, (t <= 8)%nat ->
  bits 8 (Z.land (Z.shiftl b (Z.of_nat t)) 255) = skipn t (bits 8 b) ++ repeat false t.
Proof.
  intros. apply nth_ext_eq with (d := false).
  - rewrite app_length, skipn_length, repeat_length, !bits_length. lia.
  - intros i Hi. rewrite bits_length in Hi. rewrite bits_nth by auto.
    rewrite testbit_shl_land by lia.
    destruct (Nat.lt_ge_cases i (8 - t)).
    + rewrite app_nth1 by (rewrite skipn_length, bits_length; lia).
      rewrite nth_skipn_add, bits_nth by lia.
      destruct (Z.leb_spec (Z.of_nat t) (Z.of_nat (8 - 1 - i))); try lia.
      destruct (Z.ltb_spec (Z.of_nat (8 - 1 - i)) 8); try lia. cbn [andb]. f_equal. lia.
    + rewrite app_nth2 by (rewrite skipn_length, bits_length; lia).
      rewrite nth_repeat_lt by (rewrite skipn_length, bits_length; lia).
      destruct (Z.leb_spec (Z.of_nat t) (Z.of_nat (8 - 1 - i))); try lia. reflexivity.
Qed.

Lemma land255_range : forall x, 0 <= Z.land x 255 < 256.
Proof. intros. rewrite land_255. apply Z.mod_pos_bound. lia. Qed.

Lemma enc_spread_ok : forall n B fuel src s b,
  (1 <= n <= 7)%nat -> (src < fuel)%nat -> (0 < src <= 8)%nat -> 0 <= b < 256 ->
  (forall k, (k < 8 - src)%nat -> Z.testbit b (Z.of_nat k) = false) ->
  binv n B s -> (n * bn_byte s + bn_bit s + src <= n * B)%nat ->
  exists s', enc_spread fuel n b src s = Some s' /\ binv n B s' /\
    Rb n s' = Rb n s ++ firstn src (bits 8 b).
Proof.
  intros n B. induction fuel; intros src s b Hn Hf Hs Hb Hlow Hi Hfit; try lia.
  cbn [enc_spread].
  destruct Hi as [Hl Hr Hbit Hbyte Hlo Hz].
  set (t := (n - bn_bit s)%nat) in *.
  set (o := nth (bn_byte s) (bn_buf s) 0) in *.
  assert (Hp : (bn_byte s < length (bn_buf s))%nat) by nia.
  assert (Ho : 0 <= o < 2 ^ Z.of_nat n).
  { apply Forall_nth_default; auto. split; try lia. }
  set (v := Z.lor o (Z.shiftr b (Z.of_nat (8 - t)))).
  assert (Hv : 0 <= v < 2 ^ Z.of_nat n).
  { apply lor_range; try lia. apply shiftr_range; try lia.
    split; try lia. eapply Z.lt_le_trans. apply Hb. change 256 with (2 ^ 8).
    apply Z.pow_le_mono_r; lia. }
  assert (Hvb : bits n v = firstn (bn_bit s) (bits n o) ++ firstn t (bits 8 b)).
  { unfold v. rewrite or_bits_enc; auto; try lia. f_equal. f_equal. lia. }
  destruct (Nat.leb_spec t src) as [Hge|Hlt].
  - (* character completed *)
    set (s1 := {| bn_buf := upd (bn_byte s) v (bn_buf s); bn_byte := S (bn_byte s); bn_bit := 0 |}).
    assert (I1 : binv n B s1).
    { constructor; simpl.
      - rewrite upd_length; auto.
      - apply upd_Forall; auto.
      - lia.
      - lia.
      - intros k Hk. rewrite upd_nth_neq by lia. rewrite Hz by lia. apply Z.testbit_0_l.
      - intros i Hi. rewrite upd_nth_neq by lia. apply Hz. lia. }
    assert (R1 : Rb n s1 = Rb n s ++ firstn t (bits 8 b)).
    { unfold Rb, s1; cbn [bn_buf bn_byte bn_bit]. rewrite firstn_O, app_nil_r.
      rewrite firstn_S_nth with (d := 0) by (rewrite upd_length; auto).
      rewrite upd_nth_eq, upd_firstn by auto. rewrite flat_map_app. simpl. rewrite app_nil_r.
      rewrite <- app_assoc. f_equal. apply Hvb. }
    destruct (Nat.eqb_spec (src - t) 0) as [E|E].
    + exists s1. split; [reflexivity|]. split; auto. rewrite R1. f_equal. f_equal. lia.
    + destruct (IHfuel (src - t)%nat s1 (Z.land (Z.shiftl b (Z.of_nat t)) 255)) as [s' [E' [I' R']]]; auto.
      * lia.
      * lia.
      * apply land255_range.
      * intros k Hk. rewrite testbit_shl_land by lia.
        destruct (Z.leb_spec (Z.of_nat t) (Z.of_nat k)); simpl; auto.
        destruct (Z.ltb_spec (Z.of_nat k) 8); auto.
        replace (Z.of_nat k - Z.of_nat t) with (Z.of_nat (k - t)) by lia. apply Hlow. lia.
      * simpl. lia.
      * exists s'. split; auto. split; auto. rewrite R', R1, <- app_assoc. f_equal.
        rewrite bits8_shl by lia. rewrite firstn_app_le by (rewrite skipn_length, bits_length; lia).
        replace src with (t + (src - t))%nat at 2 by lia. rewrite firstn_add. reflexivity.
  - eexists. split; [reflexivity|]. 
    assert (Hz2 : forall k, (k < t - src)%nat -> Z.testbit v (Z.of_nat k) = false).
    { intros k Hk. unfold v. rewrite Z.lor_spec, Z.shiftr_spec by lia.
      rewrite Hlo by lia. rewrite orb_false_l. replace (Z.of_nat k + Z.of_nat (8 - t)) with (Z.of_nat (k + (8 - t))) by lia.
      apply Hlow. lia. }
    split.
    + constructor; simpl.
      * rewrite upd_length; auto.
      * apply upd_Forall; auto.
      * lia.
      * lia.
      * intros k Hk. rewrite upd_nth_eq by auto. apply Hz2. lia.
      * intros i Hi. rewrite upd_nth_neq by lia. apply Hz. lia.
    + unfold Rb; simpl. rewrite upd_nth_eq, upd_firstn by auto. fold o v. rewrite Hvb, <- app_assoc. f_equal.
      rewrite firstn_app_ge by (rewrite firstn_length, bits_length; lia).
      f_equal. rewrite firstn_length, bits_length, Nat.min_l by lia.
      rewrite firstn_firstn. f_equal. lia.
Qed.

Lemma enc_block_facts : forall n, (1 <= n <= 7)%nat ->
  ((n * enc_block_size n) mod 8 = 0)%nat /\ (8 <= n * enc_block_size n)%nat /\ enc_block_size n = pad_block n.
Proof.
  intros n Hn. assert (C : (n = 1 \/ n = 2 \/ n = 3 \/ n = 4 \/ n = 5 \/ n = 6 \/ n = 7)%nat) by lia.
  repeat (destruct C as [->|C]; [vm_compute; repeat split; lia|]). subst; vm_compute; repeat split; lia.
Qed.

Lemma binv_fresh : forall w B, (0 < w)%nat ->
  binv w B {| bn_buf := repeat 0 B; bn_byte := 0; bn_bit := 0 |}.
Proof.
  intros. constructor; simpl; try lia.
  - rewrite repeat_length; auto.
  - apply Forall_repeat. split; try lia.
  - intros. destruct B; simpl; apply Z.testbit_0_l.
  - intros. destruct (Nat.lt_ge_cases i B).
    + apply nth_repeat_lt; auto.
    + apply nth_overflow. rewrite repeat_length; auto.
Qed.

(** Between input bytes: either at the start of a block (buffer contents irrelevant) or inside one. *)
Definition encI (n : nat) (s : bn_state) : Prop :=
  (length (bn_buf s) = enc_block_size n /\ bn_byte s = 0%nat /\ bn_bit s = 0%nat) \/
  (binv n (enc_block_size n) s /\ (0 < bn_byte s < enc_block_size n)%nat /\ ((n * bn_byte s + bn_bit s) mod 8 = 0)%nat).

Definition encR (n : nat) (s : bn_state) : list bool := if Nat.eqb (bn_byte s) 0 then [] else Rb n s.

Lemma enc_byte_ok : forall n alpha s b, (1 <= n <= 7)%nat -> 0 <= b < 256 -> encI n s ->
  exists s' d, enc_byte n alpha s b = Some (s', map alpha d) /\ encI n s' /\
    Forall (fun x => 0 <= x < 2 ^ Z.of_nat n) d /\
    ((length d = 0 \/ length d = enc_block_size n)%nat) /\
    flat_map (bits n) d ++ encR n s' = encR n s ++ bits 8 b.
Proof.
  intros n alpha s b Hn Hb HI. unfold enc_byte.
  destruct (enc_block_facts n Hn) as [F1 [F2 _]].
  set (B := enc_block_size n) in *.
  set (s0 := if Nat.eqb (bn_byte s) 0 then _ else s).
  assert (H0 : binv n B s0 /\ (n * bn_byte s0 + bn_bit s0 + 8 <= n * B)%nat /\ Rb n s0 = encR n s).
  { unfold s0, encR. destruct HI as [[H1 [H2 H3]]|[H1 [H2 H3]]].
    - rewrite H2, H3. simpl Nat.eqb. cbv iota. split; [|split].
      + apply binv_fresh. lia.
      + simpl. lia.
      + reflexivity.
    - destruct (Nat.eqb_spec (bn_byte s) 0); try lia. split; auto. split; auto.
      pose proof (bi_bit _ _ _ H1). fold B in H1, H2.
      assert ((n * bn_byte s + bn_bit s < n * B)%nat) by nia.
      pose proof (Nat.div_mod (n * bn_byte s + bn_bit s) 8). pose proof (Nat.div_mod (n * B) 8). lia. }
  destruct H0 as [I0 [Fit R0]].
  destruct (enc_spread_ok n B 9 8 s0 b) as [s1 [E1 [I1 R1]]]; auto; try lia.
  rewrite E1. rewrite R0 in R1.
  assert (L1 := Rb_length _ _ _ I1). assert (L0 := Rb_length _ _ _ I0). rewrite R0 in L0.
  rewrite R1, app_length, firstn_length, bits_length, L0, Nat.min_l in L1 by lia.
  assert (Hm0 : ((n * bn_byte s0 + bn_bit s0) mod 8 = 0)%nat).
  { unfold s0. destruct HI as [[H1 [H2 H3]]|[H1 [H2 H3]]].
    - rewrite H2, H3; simpl. rewrite Nat.mul_0_r. reflexivity.
    - destruct (Nat.eqb_spec (bn_byte s) 0); try lia; auto. }
  assert (Hm1 : ((n * bn_byte s1 + bn_bit s1) mod 8 = 0)%nat).
  { rewrite <- L1. replace (n * bn_byte s0 + bn_bit s0 + 8)%nat with (n * bn_byte s0 + bn_bit s0 + 1 * 8)%nat by lia.
    rewrite Nat.mod_add by lia. auto. }
  pose proof (bi_bit _ _ _ I1). pose proof (bi_byte _ _ _ I1).
  rewrite (firstn_all2 (n:=8)) in R1 by (rewrite bits_length; lia).
  destruct (Nat.eqb_spec (bn_byte s1) B) as [EB|NB].
  - exists {| bn_buf := map alpha (firstn (bn_byte s1) (bn_buf s1)) ++ skipn (bn_byte s1) (bn_buf s1); bn_byte := 0; bn_bit := 0 |}, (firstn B (bn_buf s1)).
    split; [reflexivity|]. split; [|split; [|split]].
    + left. simpl. rewrite app_length, map_length, firstn_length, skipn_length, (bi_len _ _ _ I1). fold B. lia.
    + apply Forall_firstn. apply (bi_rng _ _ _ I1).
    + right. rewrite firstn_length, (bi_len _ _ _ I1). lia.
    + unfold encR at 1. simpl. rewrite app_nil_r. rewrite <- R1. unfold Rb.
      rewrite EB. replace (bn_bit s1) with 0%nat by nia. simpl. rewrite app_nil_r. reflexivity.
  - exists s1, []. split; [reflexivity|]. assert ((0 < bn_byte s1)%nat) by nia.
    split; [|split; [|split]]; auto.
    + right. fold B. split; auto. split; auto. lia.
    + simpl. unfold encR. destruct (Nat.eqb_spec (bn_byte s1) 0); try lia. apply R1.
Qed.

Lemma enc_bytes_ok : forall n alpha l s, (1 <= n <= 7)%nat -> bytes l -> encI n s ->
  exists s' d, enc_bytes n alpha s l = Some (s', map alpha d) /\ encI n s' /\
    Forall (fun x => 0 <= x < 2 ^ Z.of_nat n) d /\
    (exists k, length d = k * enc_block_size n)%nat /\
    flat_map (bits n) d ++ encR n s' = encR n s ++ flat_map (bits 8) l.
Proof.
  induction l; intros s Hn Hb HI.
  - exists s, []. simpl. rewrite app_nil_r. repeat split; auto. exists 0%nat; auto.
  - inversion Hb; subst. destruct (enc_byte_ok n alpha s a Hn H1 HI) as [s1 [d1 [E1 [I1 [R1 [L1 F1]]]]]].
    destruct (IHl s1 Hn H2 I1) as [s2 [d2 [E2 [I2 [R2 [L2 F2]]]]]].
    exists s2, (d1 ++ d2). cbn [enc_bytes]. rewrite E1, E2. split; [rewrite map_app; auto|].
    split; auto. split; [apply Forall_app; auto|]. split.
    + destruct L2 as [k L2]. rewrite app_length, L2. destruct L1 as [->| ->].
      * exists k; lia.
      * exists (S k); lia.
    + rewrite flat_map_app, <- app_assoc, F2, app_assoc, F1, <- app_assoc. reflexivity.
Qed.

Lemma enc_bytes_app : forall n alpha l1 l2 s,
  enc_bytes n alpha s (l1 ++ l2) =
  match enc_bytes n alpha s l1 with
  | None => None
  | Some (s1, o1) => match enc_bytes n alpha s1 l2 with
                     | None => None
                     | Some (s2, o2) => Some (s2, o1 ++ o2) end
  end.
Proof.
  induction l1; intros; simpl.
  - destruct (enc_bytes n alpha s l2) as [[]|]; reflexivity.
  - destruct (enc_byte n alpha s a) as [[s1 o1]|]; auto. rewrite IHl1.
    destruct (enc_bytes n alpha s1 l1) as [[s2 o2]|]; auto.
    destruct (enc_bytes n alpha s2 l2) as [[s3 o3]|]; auto. rewrite app_assoc. reflexivity.
Qed.

(** At message start: position zero. *)
Definition enc_start (n : nat) (s : bn_state) : Prop :=
  length (bn_buf s) = enc_block_size n /\ bn_byte s = 0%nat /\ bn_bit s = 0%nat.

Lemma enc_start_I : forall n s, enc_start n s -> encI n s.
Proof. unfold enc_start, encI. auto. Qed.

Lemma enc_start_init : forall n, enc_start n (enc_init n).
Proof. intros. unfold enc_start, enc_init; simpl. rewrite repeat_length. auto. Qed.

Lemma div_exact_eq : forall a b q r, (0 < b)%nat -> (a = b * q + r)%nat -> (r < b)%nat -> (a / b = q)%nat.
Proof. intros. symmetry. apply Nat.div_unique with r; auto. Qed.

Lemma enc_message : forall n alpha pad msg s, (1 <= n <= 7)%nat -> bytes msg -> enc_start n s ->
  exists s1 s2 o1 o2, enc_bytes n alpha s msg = Some (s1, o1) /\ enc_end n alpha pad s1 = (s2, o2) /\
    enc_start n s2 /\ o1 ++ o2 = encode_spec n alpha pad msg.
Proof.
  intros n alpha pad msg s Hn Hb HS.
  destruct (enc_block_facts n Hn) as [F1 [F2 F3]].
  destruct (enc_bytes_ok n alpha msg s Hn Hb (enc_start_I _ _ HS)) as [s1 [d [E [I1 [Rg [[k Lk] Fl]]]]]].
  assert (R0 : encR n s = []).
  { unfold encR. destruct HS as [_ [-> _]]. reflexivity. }
  rewrite R0 in Fl. simpl in Fl.
  unfold enc_end.
  set (B := enc_block_size n) in *.
  set (bp := if Nat.ltb 0 (bn_bit s1) then S (bn_byte s1) else bn_byte s1).
  set (d' := firstn bp (bn_buf s1)).
  (* the total digits *)
  assert (KEY : length (bn_buf s1) = B /\ (bp <= B)%nat /\ Forall (fun x => 0 <= x < 2 ^ Z.of_nat n) d' /\
     length d' = bp /\ exists z, (z < n)%nat /\ flat_map (bits n) d' = encR n s1 ++ repeat false z /\ (bp = 0%nat \/ bp <= B)%nat ).
  { destruct I1 as [[H1 [H2 H3]]|[H1 [H2 H3]]].
    - fold B in H1. unfold d', bp, encR. rewrite H2, H3. simpl. repeat split; auto; try lia. exists 0%nat. simpl. split; auto; try lia.
    - fold B in H1, H2. pose proof (bi_bit _ _ _ H1). pose proof (bi_len _ _ _ H1).
      assert (HB : (bp <= B)%nat) by (unfold bp; destruct (Nat.ltb 0 (bn_bit s1)); lia).
      split; auto. split; auto. split; [apply Forall_firstn; apply (bi_rng _ _ _ H1)|].
      split; [unfold d'; rewrite firstn_length; lia|].
      unfold encR. destruct (Nat.eqb_spec (bn_byte s1) 0); try lia.
      unfold d', bp, Rb. destruct (Nat.ltb_spec 0 (bn_bit s1)).
      + exists (n - bn_bit s1)%nat. split; [lia|]. split; [|right; unfold bp in HB; destruct (Nat.ltb_spec 0 (bn_bit s1)); lia].
        rewrite firstn_S_nth with (d := 0) by lia. rewrite flat_map_app, <- app_assoc. f_equal. simpl. rewrite app_nil_r.
        set (o := nth (bn_byte s1) (bn_buf s1) 0).
        rewrite <- (firstn_skipn (bn_bit s1) (bits n o)) at 1. f_equal.
        apply nth_ext_eq with (d := false).
        * rewrite skipn_length, repeat_length, bits_length; auto.
        * intros i Hi. rewrite skipn_length, bits_length in Hi. rewrite nth_skipn_add, bits_nth by lia.
          rewrite nth_repeat_lt by lia. apply (bi_low _ _ _ H1). lia.
      + exists 0%nat. split; [lia|]. split; [|lia]. replace (bn_bit s1) with 0%nat by lia. simpl. rewrite !app_nil_r. reflexivity. }
  destruct KEY as [KL [KB [KR [KD [z [Kz [KF _]]]]]]].
  assert (TOT : flat_map (bits n) (d ++ d') = flat_map (bits 8) msg ++ repeat false z).
  { rewrite flat_map_app, KF, app_assoc, Fl. reflexivity. }
  assert (TL : (n * (length d + bp) = 8 * length msg + z)%nat).
  { apply (f_equal (@length bool)) in TOT.
    rewrite app_length, !flat_bits_length, repeat_length, app_length, KD in TOT. lia. }
  assert (Hc : enc_chars n (length msg) = (length d + bp)%nat).
  { unfold enc_chars. apply div_exact_eq with (r := (n - 1 - z)%nat); lia. }
  assert (DD : d ++ d' = recut 8 n (enc_chars n (length msg)) msg).
  { apply recut_unique.
    - apply Forall_app; auto.
    - rewrite app_length, KD; auto.
    - rewrite stream_bits_flat by lia. rewrite TOT. f_equal. f_equal. lia. }
  set (chars := map alpha d').
  set (out := match pad with Some p => if Nat.ltb 0 bp then chars ++ repeat p (B - bp) else chars | None => chars end).
  exists s1, {| bn_buf := out ++ skipn (length out) (bn_buf s1); bn_byte := 0; bn_bit := 0 |}, (map alpha d), out.
  split; auto. split; [reflexivity|]. 
  assert (LO : (length out <= B)%nat).
  { unfold out, chars. destruct pad as [p|].
    - destruct (Nat.ltb 0 bp); rewrite ?app_length, ?repeat_length, map_length; lia.
    - rewrite map_length; lia. }
  split.
  - unfold enc_start; simpl. split; auto. rewrite app_length, skipn_length. fold B. lia.
  - unfold encode_spec. rewrite <- DD, map_app, <- app_assoc. f_equal.
    unfold out. destruct pad as [p|]; [|rewrite app_nil_r; reflexivity].
    rewrite Hc, <- F3. fold B. assert (B <> 0)%nat by nia.
    rewrite Lk. replace (k * B + bp)%nat with (bp + k * B)%nat by lia. rewrite Nat.mod_add by auto.
    destruct (Nat.ltb_spec 0 bp).
    + fold chars. f_equal. destruct (Nat.eq_dec bp B) as [EB|NB].
      * rewrite EB, Nat.mod_same, Nat.sub_diag, Nat.sub_0_r, Nat.mod_same by auto. reflexivity.
      * rewrite (Nat.mod_small bp) by lia. rewrite Nat.mod_small by lia. reflexivity.
    + fold chars. replace bp with 0%nat by lia. rewrite Nat.mod_0_l, Nat.sub_0_r, Nat.mod_same by auto. simpl. rewrite app_nil_r. reflexivity.
Qed.

(** Histories *)
Lemma enc_run_app : forall n alpha pad h1 h2 s,
  enc_run n alpha pad s (h1 ++ h2) =
  match enc_run n alpha pad s h1 with
  | None => None
  | Some (s1, o1) => match enc_run n alpha pad s1 h2 with
                     | None => None | Some (s2, o2) => Some (s2, o1 ++ o2) end
  end.
Proof.
  induction h1 as [|[l e] t IH]; intros; simpl.
  - destruct (enc_run n alpha pad s h2) as [[]|]; reflexivity.
  - destruct (enc_put n alpha pad s l e) as [[s1 o]|]; auto. rewrite IH.
    destruct (enc_run n alpha pad s1 t) as [[s2 o2]|]; auto.
    destruct (enc_run n alpha pad s2 h2) as [[]|]; reflexivity.
Qed.

Lemma messages_out_app_false : forall cs tr acc,
  Forall (fun c => snd c = false) cs ->
  messages_out acc (cs ++ tr) = messages_out (acc ++ concat (map fst cs)) tr.
Proof.
  induction cs as [|[o e] t IH]; intros; simpl.
  - rewrite app_nil_r; reflexivity.
  - inversion H; subst. simpl in H2. subst. rewrite IH by auto. rewrite app_assoc. reflexivity.
Qed.

Lemma enc_run_chunks : forall n alpha pad cs s,
  match enc_bytes n alpha s (concat cs) with
  | None => True
  | Some (s', o) => exists tr, enc_run n alpha pad s (map (fun c => (c, false)) cs) = Some (s', tr) /\
        Forall (fun c => snd c = false) tr /\ concat (map fst tr) = o
  end.
Proof.
  induction cs; intros; simpl.
  - exists []. auto.
  - rewrite enc_bytes_app. unfold enc_put.
    destruct (enc_bytes n alpha s a) as [[s1 o1]|] eqn:E1; auto.
    specialize (IHcs s1). destruct (enc_bytes n alpha s1 (concat cs)) as [[s2 o2]|] eqn:E2; auto.
    destruct IHcs as [tr [Et [Ft Ct]]]. rewrite Et.
    exists ((o1, false) :: tr). split; auto. split; [constructor; auto|]. simpl. rewrite Ct. reflexivity.
Qed.

Lemma enc_run_ok : forall n alpha pad ms s, (1 <= n <= 7)%nat ->
  Forall (fun m => bytes (message_of m)) ms -> enc_start n s ->
  exists s' tr, enc_run n alpha pad s (history_of ms) = Some (s', tr) /\ enc_start n s' /\
    messages_out [] tr = map (fun m => encode_spec n alpha pad (message_of m)) ms.
Proof.
  induction ms as [|m ms IH]; intros s Hn Hb HS.
  - exists s, []. simpl. auto.
  - inversion Hb; subst. unfold history_of. cbn [flat_map]. fold (history_of ms).
    destruct (enc_message n alpha pad (message_of m) s Hn H1 HS) as [s1 [s2 [o1 [o2 [E1 [E2 [S2 O]]]]]]].
    destruct m as [cs last]. unfold message_of in *. simpl fst in *; simpl snd in *.
    rewrite enc_bytes_app in E1.
    pose proof (enc_run_chunks n alpha pad cs s) as RC.
    destruct (enc_bytes n alpha s (concat cs)) as [[sa oa]|]; [|discriminate].
    destruct (enc_bytes n alpha sa last) as [[sb ob]|] eqn:Eb; [|discriminate]. inversion E1; subst sb o1; clear E1.
    destruct RC as [tr [Er [Fr Cr]]].
    destruct (IH s2 Hn H2 S2) as [s' [tr' [E' [S' M']]]].
    exists s', (tr ++ (ob ++ o2, true) :: tr').
    rewrite <- app_assoc, enc_run_app, Er. simpl. unfold enc_put. rewrite Eb, E2, E'.
    split; auto. split; auto. rewrite messages_out_app_false by auto. simpl. f_equal; auto.
    rewrite Cr, <- O, app_assoc. reflexivity.
Qed.

(* ---------------- decoder ---------------- *)

Lemma testbit_land255 : forall x k, 0 <= k -> Z.testbit (Z.land x 255) k = Z.testbit x k && (k <? 8).
Proof.
  intros. change 255 with (Z.ones 8). rewrite Z.land_spec. f_equal.
  destruct (Z.ltb_spec k 8).
  - apply Z.ones_spec_low; lia.
  - apply Z.ones_spec_high; lia.
Qed.

(** cell receives the first bits of the value *)
Lemma dec_cell_shl : forall n bit o v, (bit + n <= 8)%nat -> 0 <= v < 2 ^ Z.of_nat n ->
  (forall k, (k < 8 - bit)%nat -> Z.testbit o (Z.of_nat k) = false) ->
  bits 8 (Z.land (Z.lor o (Z.shiftl v (Z.of_nat (8 - (bit + n))))) 255)
  = firstn bit (bits 8 o) ++ bits n v ++ repeat false (8 - (bit + n)).
Proof.
  intros n bit o v Hf Hv Hz. apply nth_ext_eq with (d := false).
  - rewrite !app_length, firstn_length, repeat_length, !bits_length. lia.
  - intros i Hi. rewrite bits_length in Hi. rewrite bits_nth by auto.
    rewrite testbit_land255, Z.lor_spec, Z.shiftl_spec by lia.
    destruct (Z.ltb_spec (Z.of_nat (8 - 1 - i)) 8); try lia. rewrite andb_true_r.
    destruct (Nat.lt_ge_cases i bit).
    + rewrite app_nth1 by (rewrite firstn_length, bits_length; lia).
      rewrite nth_firstn_lt, bits_nth by lia.
      rewrite (testbit_above (Z.of_nat n) v) by lia. apply orb_false_r.
    + rewrite app_nth2; rewrite firstn_length, bits_length, Nat.min_l by lia; auto.
      rewrite Hz by lia. rewrite orb_false_l.
      destruct (Nat.lt_ge_cases (i - bit) n).
      * rewrite app_nth1, bits_nth by (rewrite ?bits_length; lia). f_equal. lia.
      * rewrite app_nth2 by (rewrite bits_length; lia).
        rewrite nth_repeat_lt by (rewrite bits_length; lia).
        apply Z.testbit_neg_r. lia.
Qed.

Lemma dec_cell_shr : forall n bit o v, (8 < bit + n)%nat -> (bit < 8)%nat -> (n <= 8)%nat -> 0 <= v < 2 ^ Z.of_nat n ->
  (forall k, (k < 8 - bit)%nat -> Z.testbit o (Z.of_nat k) = false) ->
  bits 8 (Z.land (Z.lor o (Z.shiftr v (Z.of_nat (bit + n - 8)))) 255)
  = firstn bit (bits 8 o) ++ firstn (8 - bit) (bits n v).
Proof.
  intros n bit o v Hf Hbit Hn Hv Hz. apply nth_ext_eq with (d := false).
  - rewrite !app_length, !firstn_length, !bits_length. lia.
  - intros i Hi. rewrite bits_length in Hi. rewrite bits_nth by auto.
    rewrite testbit_land255, Z.lor_spec, Z.shiftr_spec by lia.
    destruct (Z.ltb_spec (Z.of_nat (8 - 1 - i)) 8); try lia. rewrite andb_true_r.
    destruct (Nat.lt_ge_cases i bit).
    + rewrite app_nth1 by (rewrite firstn_length, bits_length; lia).
      rewrite nth_firstn_lt, bits_nth by lia.
      rewrite (testbit_above (Z.of_nat n) v) by lia. apply orb_false_r.
    + rewrite app_nth2; rewrite firstn_length, bits_length, Nat.min_l by lia; auto.
      rewrite Hz by lia. rewrite orb_false_l.
      rewrite nth_firstn_lt, bits_nth by lia. f_equal. lia.
Qed.

Lemma dec_cell_rest : forall n bit v, (8 < bit + n)%nat -> (bit < 8)%nat -> (n <= 8)%nat ->
  0 <= v < 2 ^ Z.of_nat n ->
  bits 8 (Z.land (Z.lor 0 (Z.shiftl v (Z.of_nat (16 - (bit + n))))) 255)
  = skipn (8 - bit) (bits n v) ++ repeat false (16 - (bit + n)).
Proof.
  intros n bit v Hf Hbit Hn Hv. apply nth_ext_eq with (d := false).
  - rewrite !app_length, skipn_length, repeat_length, !bits_length. lia.
  - intros i Hi. rewrite bits_length in Hi. rewrite bits_nth by auto.
    rewrite testbit_land255, Z.lor_spec, Z.shiftl_spec, Z.testbit_0_l by lia.
    destruct (Z.ltb_spec (Z.of_nat (8 - 1 - i)) 8); try lia. rewrite andb_true_r, orb_false_l.
    destruct (Nat.lt_ge_cases i (n - (8 - bit))).
    + rewrite app_nth1 by (rewrite skipn_length, bits_length; lia).
      rewrite nth_skipn_add, bits_nth by lia. f_equal. lia.
    + rewrite app_nth2 by (rewrite skipn_length, bits_length; lia).
      rewrite nth_repeat_lt by (rewrite skipn_length, bits_length; lia).
      apply Z.testbit_neg_r. lia.
Qed.

Lemma bits8_low_zero : forall v a z, bits 8 v = a ++ repeat false z ->
  forall k, (k < z)%nat -> (z <= 8)%nat -> Z.testbit v (Z.of_nat k) = false.
Proof.
  intros v a z E k Hk Hz.
  assert (L := f_equal (@length bool) E). rewrite bits_length, app_length, repeat_length in L.
  assert (X := bits_nth 8 v (8 - 1 - k) false ltac:(lia)).
  rewrite E, app_nth2, nth_repeat_lt in X by lia.
  rewrite X. f_equal. lia.
Qed.

Definition decI (n : nat) (s : bn_state) : Prop :=
  (length (bn_buf s) = dec_block_size n /\ bn_byte s = 0%nat /\ bn_bit s = 0%nat) \/
  (binv 8 (dec_block_size n) s /\ (0 < 8 * bn_byte s + bn_bit s)%nat /\ (bn_byte s < dec_block_size n)%nat /\
   ((8 * bn_byte s + bn_bit s) mod n = 0)%nat).

Lemma dec_block_facts : forall n, (1 <= n <= 7)%nat ->
  ((8 * dec_block_size n) mod n = 0)%nat /\ (n <= 8 * dec_block_size n)%nat.
Proof.
  intros n Hn. assert (C : (n = 1 \/ n = 2 \/ n = 3 \/ n = 4 \/ n = 5 \/ n = 6 \/ n = 7)%nat) by lia.
  repeat (destruct C as [->|C]; [vm_compute; repeat split; lia|]). subst; vm_compute; repeat split; lia.
Qed.

Definition decR (s : bn_state) : list bool :=
  if Nat.eqb (bn_byte s) 0 && Nat.eqb (bn_bit s) 0 then [] else Rb 8 s.

Lemma mod_sum_fit : forall a b n, (0 < n)%nat -> (a mod n = 0)%nat -> (b mod n = 0)%nat -> (a < b)%nat -> (a + n <= b)%nat.
Proof.
  intros a b n Hn Ha Hb Hl. apply Nat.mod_divides in Ha; [|lia]. apply Nat.mod_divides in Hb; [|lia].
  destruct Ha as [x ->], Hb as [y ->].
  assert (x < y)%nat by (apply Nat.mul_lt_mono_pos_l with n; lia). nia.
Qed.

Lemma dec_byte_skip : forall n lookup s c, ~ (0 <= lookup c < 256) -> dec_byte n lookup s c = (s, []).
Proof.
  intros. unfold dec_byte. destruct (Z.ltb_spec (lookup c) 0); simpl; auto.
  destruct (Z.leb_spec 256 (lookup c)); auto. lia.
Qed.

Lemma dec_byte_ok : forall n lookup s c, (1 <= n <= 7)%nat -> 0 <= lookup c < 2 ^ Z.of_nat n -> decI n s ->
  exists s' o, dec_byte n lookup s c = (s', o) /\ decI n s' /\ bytes o /\
    flat_map (bits 8) o ++ decR s' = decR s ++ bits n (lookup c).
Proof.
  intros n lookup s c Hn Hv HI. unfold dec_byte.
  destruct (dec_block_facts n Hn) as [F1 F2].
  set (v := lookup c) in *.
  assert (Hv2 : v < 256).
  { eapply Z.lt_le_trans. apply Hv. change 256 with (2 ^ 8). apply Z.pow_le_mono_r; lia. }
  destruct (Z.ltb_spec v 0); try lia. destruct (Z.leb_spec 256 v); try lia. cbn [orb].
  set (B := dec_block_size n) in *.
  set (buf0 := if (Nat.eqb (bn_byte s) 0 && Nat.eqb (bn_bit s) 0)%bool then repeat 0 B else bn_buf s).
  set (s0 := {| bn_buf := buf0; bn_byte := bn_byte s; bn_bit := bn_bit s |}).
  assert (H0' : binv 8 B s0 /\ (8 * bn_byte s0 + bn_bit s0 + n <= 8 * B)%nat /\ Rb 8 s0 = decR s /\ ((8 * bn_byte s0 + bn_bit s0) mod n = 0)%nat).
  { unfold s0, buf0, decR. destruct HI as [[H1 [H2 H3]]|[H1 [H2 [H3 H4]]]].
    - rewrite H2, H3. cbn [Nat.eqb andb bn_byte bn_bit]. split; [|split; [|split]].
      + apply binv_fresh. lia.
      + simpl. lia.
      + unfold Rb. reflexivity.
      + rewrite Nat.mul_0_r. simpl. apply Nat.mod_0_l. lia.
    - destruct (Nat.eqb_spec (bn_byte s) 0), (Nat.eqb_spec (bn_bit s) 0); try lia; cbn [andb];
        (replace {| bn_buf := bn_buf s; bn_byte := bn_byte s; bn_bit := bn_bit s |} with s by (destruct s; reflexivity));
        pose proof (bi_bit _ _ _ H1); fold B in H3;
        (split; [exact H1 | split; [apply mod_sum_fit; auto; lia | split; auto]]). }
  destruct H0' as [I0 [Fit [R0 Hm]]]. rewrite <- R0. clear R0.
  pose proof (bi_bit _ _ _ I0) as Hbit. pose proof (bi_len _ _ _ I0) as Hlen.
  pose proof (bi_low _ _ _ I0) as Hlow. pose proof (bi_zero _ _ _ I0) as Hzero. pose proof (bi_rng _ _ _ I0) as Hrng.
  cbn [bn_buf bn_byte bn_bit s0] in Hbit, Hlen, Hlow, Hzero, Hrng, Fit, Hm.
  set (p := bn_byte s) in *. set (bit := bn_bit s) in *.
  set (o := nth p buf0 0) in *.
  assert (Hp : (p < B)%nat) by lia.
  set (buf1 := if Nat.leb (bit + n) 8 then _ else _).
  set (s1 := {| bn_buf := buf1; bn_byte := (p + (bit + n) / 8)%nat; bn_bit := ((bit + n) mod 8)%nat |}).
  assert (K : binv 8 B s1 /\ Rb 8 s1 = Rb 8 s0 ++ bits n v).
  { unfold s1, buf1. destruct (Nat.leb_spec (bit + n) 8) as [L|G].
    - assert (CB := dec_cell_shl n bit o v L Hv Hlow).
      set (x := Z.land _ 255) in *.
      assert (Hx : 0 <= x < 2 ^ Z.of_nat 8) by apply land255_range.
      destruct (Nat.eq_dec (bit + n) 8) as [E8|N8].
      + rewrite E8. change (8 / 8)%nat with 1%nat. change (8 mod 8)%nat with 0%nat. split.
        * constructor; cbn [bn_buf bn_byte bn_bit].
          -- rewrite upd_length; auto.
          -- apply upd_Forall; auto.
          -- lia.
          -- lia.
          -- intros k Hk. rewrite upd_nth_neq by lia. rewrite Hzero by lia. apply Z.testbit_0_l.
          -- intros i Hi. rewrite upd_nth_neq by lia. apply Hzero. lia.
        * unfold Rb. cbn [bn_buf bn_byte bn_bit s0]. rewrite firstn_O, app_nil_r, Nat.add_1_r.
          rewrite firstn_S_nth with (d := 0) by (rewrite upd_length; lia).
          rewrite upd_nth_eq, upd_firstn by lia. rewrite flat_map_app, <- app_assoc. f_equal.
          cbn [flat_map]. rewrite app_nil_r, CB, E8. simpl. rewrite app_nil_r. reflexivity.
      + rewrite Nat.div_small, Nat.mod_small, Nat.add_0_r by lia. split.
        * constructor; cbn [bn_buf bn_byte bn_bit].
          -- rewrite upd_length; auto.
          -- apply upd_Forall; auto.
          -- lia.
          -- lia.
          -- intros k Hk. rewrite upd_nth_eq by lia.
             apply bits8_low_zero with (a := firstn bit (bits 8 o) ++ bits n v) (z := (8 - (bit + n))%nat); try lia.
             rewrite CB, <- app_assoc. reflexivity.
          -- intros i Hi. rewrite upd_nth_neq by lia. apply Hzero. lia.
        * unfold Rb. cbn [bn_buf bn_byte bn_bit s0]. rewrite upd_nth_eq, upd_firstn by lia.
          rewrite <- app_assoc. f_equal. rewrite CB. fold p bit o.
          rewrite app_assoc, firstn_app_le by (rewrite app_length, firstn_length, !bits_length; lia).
          apply firstn_all2. rewrite app_length, firstn_length, !bits_length; lia.
    - assert (CB := dec_cell_shr n bit o v G Hbit ltac:(lia) Hv Hlow).
      assert (CR := dec_cell_rest n bit v G Hbit ltac:(lia) Hv).
      set (x := Z.land (Z.lor o _) 255) in *.
      assert (Hx : 0 <= x < 2 ^ Z.of_nat 8) by apply land255_range.
      assert (HSp : (S p < B)%nat) by lia.
      rewrite (upd_nth_neq p (S p)) by lia. rewrite (Hzero (S p)) by lia.
      set (y := Z.land (Z.lor 0 _) 255) in *.
      assert (Hy : 0 <= y < 2 ^ Z.of_nat 8) by apply land255_range.
      assert (D1 : ((bit + n) / 8 = 1)%nat) by (apply div_exact_eq with (r := (bit + n - 8)%nat); lia).
      assert (D2 : ((bit + n) mod 8 = bit + n - 8)%nat) by (pose proof (Nat.div_mod (bit + n) 8 ltac:(lia)); lia).
      rewrite D1, D2, Nat.add_1_r. split.
      + constructor; cbn [bn_buf bn_byte bn_bit].
        * rewrite !upd_length; auto.
        * apply upd_Forall; auto. apply upd_Forall; auto.
        * lia.
        * lia.
        * intros k Hk. rewrite upd_nth_eq by (rewrite upd_length; lia).
          apply bits8_low_zero with (1 := CR); lia.
        * intros i Hi. rewrite !upd_nth_neq by lia. apply Hzero. lia.
      + unfold Rb. cbn [bn_buf bn_byte bn_bit s0].
        rewrite firstn_S_nth with (d := 0) by (rewrite !upd_length; lia).
        rewrite (upd_nth_neq (S p) p), (upd_nth_eq p) by lia.
        rewrite (upd_nth_eq (S p)) by (rewrite upd_length; lia).
        rewrite (upd_firstn (S p)), (upd_firstn p) by lia.
        rewrite flat_map_app, <- !app_assoc. f_equal.
        cbn [flat_map]. rewrite app_nil_r, CB, CR, <- app_assoc. fold o. f_equal.
        rewrite firstn_app_le by (rewrite skipn_length, bits_length; lia).
        rewrite (firstn_all2 (skipn _ _)) by (rewrite skipn_length, bits_length; lia).
        apply firstn_skipn. }
  destruct K as [I1 R1]. rewrite <- R1.
  assert (HL1 := Rb_length _ _ _ I1). assert (HL0 := Rb_length _ _ _ I0).
  rewrite R1, app_length, bits_length, HL0 in HL1.
  assert (Hm1 : ((8 * bn_byte s1 + bn_bit s1) mod n = 0)%nat).
  { rewrite <- HL1. replace (8 * bn_byte s0 + bn_bit s0 + n)%nat with (8 * bn_byte s0 + bn_bit s0 + 1 * n)%nat by lia.
    rewrite Nat.mod_add by lia. exact Hm. }
  cbn [bn_byte bn_bit s0] in HL1. fold p bit in HL1.
  change (p + (bit + n) / 8)%nat with (bn_byte s1) .
  pose proof (bi_bit _ _ _ I1) as Hb1. pose proof (bi_byte _ _ _ I1) as Hy1. pose proof (bi_len _ _ _ I1) as Hl1.
  destruct (Nat.eqb_spec (bn_byte s1) B) as [EB|NB].
  - exists {| bn_buf := buf1; bn_byte := 0; bn_bit := 0 |}, (firstn B buf1).
    split; [reflexivity|]. split; [|split].
    + left. simpl. split; auto.
    + apply Forall_firstn. apply (bi_rng _ _ _ I1).
    + unfold decR at 1. cbn [bn_byte bn_bit Nat.eqb andb]. rewrite app_nil_r. unfold Rb.
      rewrite EB. replace (bn_bit s1) with 0%nat by lia. rewrite firstn_O, app_nil_r. reflexivity.
  - exists s1, []. split; [reflexivity|]. split; [|split].
    + right. fold B. split; auto. split; [lia|]. split; [lia|]. auto.
    + constructor.
    + simpl. unfold decR.
      destruct (Nat.eqb_spec (bn_byte s1) 0), (Nat.eqb_spec (bn_bit s1) 0); try lia; reflexivity.
Qed.

Definition good_lookup (n : nat) (lookup : Z -> Z) (l : list Z) : Prop :=
  Forall (fun c => ~ (0 <= lookup c < 256) \/ 0 <= lookup c < 2 ^ Z.of_nat n) l.

Lemma dec_bytes_ok : forall n lookup l s, (1 <= n <= 7)%nat -> good_lookup n lookup l -> decI n s ->
  exists s' o, dec_bytes n lookup s l = (s', o) /\ decI n s' /\ bytes o /\
    flat_map (bits 8) o ++ decR s' = decR s ++ flat_map (bits n) (values_spec lookup l).
Proof.
  induction l; intros s Hn Hg HI.
  - exists s, []. simpl. rewrite app_nil_r. split; auto. split; auto. split; auto. constructor.
  - inversion Hg; subst. cbn [dec_bytes values_spec map filter]. fold (values_spec lookup l).
    destruct (Z_lt_dec (lookup a) 0) as [N|N]; [|destruct (Z_lt_dec (lookup a) 256) as [P|P]].
    + rewrite dec_byte_skip by lia. destruct (IHl s Hn H2 HI) as [s' [o [E [I [Hb F]]]]].
      rewrite E. exists s', o. destruct (Z.leb_spec 0 (lookup a)); try lia. cbn [andb]. auto.
    + destruct H1 as [H1|H1]; [lia|].
      destruct (dec_byte_ok n lookup s a Hn H1 HI) as [s1 [o1 [E1 [I1 [B1 F1]]]]].
      destruct (IHl s1 Hn H2 I1) as [s2 [o2 [E2 [I2 [B2 F2]]]]].
      rewrite E1, E2. exists s2, (o1 ++ o2). split; auto. split; auto. split; [apply Forall_app; auto|].
      destruct (Z.leb_spec 0 (lookup a)); try lia. destruct (Z.ltb_spec (lookup a) 256); try lia. cbn [andb].
      cbn [flat_map]. rewrite flat_map_app, <- app_assoc, F2, app_assoc, F1, <- app_assoc. reflexivity.
    + rewrite dec_byte_skip by lia. destruct (IHl s Hn H2 HI) as [s' [o [E [I [Hb F]]]]].
      rewrite E. exists s', o. destruct (Z.ltb_spec (lookup a) 256); try lia. rewrite andb_false_r. auto.
Qed.

Lemma dec_bytes_app : forall n lookup l1 l2 s,
  dec_bytes n lookup s (l1 ++ l2) =
  let '(s1, o1) := dec_bytes n lookup s l1 in
  let '(s2, o2) := dec_bytes n lookup s1 l2 in (s2, o1 ++ o2).
Proof.
  induction l1; intros; simpl.
  - destruct (dec_bytes n lookup s l2); reflexivity.
  - destruct (dec_byte n lookup s a) as [s1 o1]. rewrite IHl1.
    destruct (dec_bytes n lookup s1 l1) as [s2 o2]. destruct (dec_bytes n lookup s2 l2). rewrite app_assoc. reflexivity.
Qed.

Definition dec_start (n : nat) (s : bn_state) : Prop :=
  length (bn_buf s) = dec_block_size n /\ bn_byte s = 0%nat /\ bn_bit s = 0%nat.

Lemma dec_start_init : forall n, dec_start n (dec_init n).
Proof. intros. unfold dec_start, dec_init; simpl. rewrite repeat_length. auto. Qed.

Lemma dec_message : forall n lookup text s, (1 <= n <= 7)%nat -> good_lookup n lookup text -> dec_start n s ->
  exists s1 s2 o1 o2, dec_bytes n lookup s text = (s1, o1) /\ dec_end s1 = (s2, o2) /\
    dec_start n s2 /\ o1 ++ o2 = decode_spec n lookup text.
Proof.
  intros n lookup text s Hn Hg HS.
  destruct (dec_bytes_ok n lookup text s Hn Hg (or_introl HS)) as [s1 [o1 [E [I1 [B1 F1]]]]].
  assert (R0 : decR s = []).
  { unfold decR. destruct HS as [_ [-> ->]]. reflexivity. }
  rewrite R0 in F1. simpl in F1.
  exists s1, {| bn_buf := bn_buf s1; bn_byte := 0; bn_bit := 0 |}, o1, (firstn (bn_byte s1) (bn_buf s1)).
  split; auto. split; [reflexivity|].
  assert (KEY : length (bn_buf s1) = dec_block_size n /\ bytes (firstn (bn_byte s1) (bn_buf s1)) /\
     length (firstn (bn_byte s1) (bn_buf s1)) = bn_byte s1 /\
     exists r, (length r < 8)%nat /\ decR s1 = flat_map (bits 8) (firstn (bn_byte s1) (bn_buf s1)) ++ r).
  { destruct I1 as [[H1 [H2 H3]]|[H1 [H2 [H3 H4]]]].
    - unfold decR. rewrite H2, H3. simpl. repeat split; auto. constructor. exists []. simpl. split; auto. lia.
    - pose proof (bi_len _ _ _ H1). pose proof (bi_bit _ _ _ H1).
      repeat split; auto.
      + apply Forall_firstn. apply (bi_rng _ _ _ H1).
      + rewrite firstn_length. lia.
      + eexists. split; [|unfold decR; destruct (Nat.eqb_spec (bn_byte s1) 0), (Nat.eqb_spec (bn_bit s1) 0); try lia; reflexivity].
        rewrite firstn_length, bits_length. lia. }
  destruct KEY as [KL [KB [KN [r [Kr KR]]]]].
  split; [unfold dec_start; auto|].
  rewrite KR, app_assoc, <- flat_map_app in F1.
  set (D := o1 ++ firstn (bn_byte s1) (bn_buf s1)) in *.
  set (V := values_spec lookup text) in *.
  assert (L := f_equal (@length bool) F1). rewrite app_length, !flat_bits_length in L.
  unfold decode_spec. fold V.
  assert (C : (n * length V / 8 = length D)%nat) by (apply div_exact_eq with (r := length r); lia).
  rewrite C. apply recut_unique; auto.
  - apply Forall_app; auto.
  - rewrite stream_bits_prefix by lia. rewrite <- F1.
    rewrite firstn_app_le by (rewrite flat_bits_length; lia).
    symmetry. apply firstn_all2. rewrite flat_bits_length; lia.
Qed.

Lemma dec_run_app : forall n lookup h1 h2 s,
  dec_run n lookup s (h1 ++ h2) =
  let '(s1, o1) := dec_run n lookup s h1 in
  let '(s2, o2) := dec_run n lookup s1 h2 in (s2, o1 ++ o2).
Proof.
  induction h1 as [|[l e] t IH]; intros; simpl.
  - destruct (dec_run n lookup s h2); reflexivity.
  - destruct (dec_put n lookup s l e) as [s1 o]. rewrite IH.
    destruct (dec_run n lookup s1 t) as [s2 o2]. destruct (dec_run n lookup s2 h2); reflexivity.
Qed.

Lemma dec_run_chunks : forall n lookup cs s,
  exists tr, dec_run n lookup s (map (fun c => (c, false)) cs) = (fst (dec_bytes n lookup s (concat cs)), tr) /\
        Forall (fun c => snd c = false) tr /\ concat (map fst tr) = snd (dec_bytes n lookup s (concat cs)).
Proof.
  induction cs; intros; simpl.
  - exists []. auto.
  - rewrite dec_bytes_app. unfold dec_put.
    destruct (dec_bytes n lookup s a) as [s1 o1] eqn:E1.
    destruct (IHcs s1) as [tr [Et [Ft Ct]]]. rewrite Et.
    destruct (dec_bytes n lookup s1 (concat cs)) as [s2 o2].
    exists ((o1, false) :: tr). split; auto. split; [constructor; auto|]. simpl in *. rewrite Ct. reflexivity.
Qed.

Lemma dec_run_ok : forall n lookup ms s, (1 <= n <= 7)%nat ->
  Forall (fun m => good_lookup n lookup (message_of m)) ms -> dec_start n s ->
  exists s' tr, dec_run n lookup s (history_of ms) = (s', tr) /\ dec_start n s' /\
    messages_out [] tr = map (fun m => decode_spec n lookup (message_of m)) ms.
Proof.
  induction ms as [|m ms IH]; intros s Hn Hb HS.
  - exists s, []. simpl. auto.
  - inversion Hb; subst. unfold history_of. cbn [flat_map]. fold (history_of ms).
    destruct (dec_message n lookup (message_of m) s Hn H1 HS) as [s1 [s2 [o1 [o2 [E1 [E2 [S2 O]]]]]]].
    destruct m as [cs last]. unfold message_of in *. simpl fst in *; simpl snd in *.
    rewrite dec_bytes_app in E1.
    destruct (dec_run_chunks n lookup cs s) as [tr [Er [Fr Cr]]].
    destruct (dec_bytes n lookup s (concat cs)) as [sa oa]. simpl in Er, Cr.
    destruct (dec_bytes n lookup sa last) as [sb ob] eqn:Eb. inversion E1; subst sb o1; clear E1.
    destruct (IH s2 Hn H2 S2) as [s' [tr' [E' [S' M']]]].
    exists s', (tr ++ (ob ++ o2, true) :: tr').
    rewrite <- app_assoc, dec_run_app, Er. simpl. unfold dec_put. rewrite Eb, E2, E'.
    split; auto. split; auto. rewrite messages_out_app_false by auto. simpl. f_equal; auto.
    rewrite Cr, <- O, app_assoc. reflexivity.
Qed.

(* ---------------- round trip ---------------- *)

Lemma recut_recut : forall n c l, (1 <= n <= 7)%nat -> bytes l -> c = enc_chars n (length l) ->
  (n * c / 8 = length l)%nat /\ recut n 8 (length l) (recut 8 n c l) = l.
Proof.
  intros n c l Hn Hl Hc.
  assert (Cb : (8 * length l <= n * c < 8 * length l + n)%nat).
  { subst c. unfold enc_chars. pose proof (Nat.div_mod (8 * length l + n - 1) n ltac:(lia)).
    pose proof (Nat.mod_upper_bound (8 * length l + n - 1) n ltac:(lia)). nia. }
  split.
  - apply div_exact_eq with (r := (n * c - 8 * length l)%nat); lia.
  - symmetry. apply recut_unique; auto.
    rewrite stream_bits_prefix by (rewrite ?recut_length; lia).
    rewrite recut_flat, stream_bits_flat by lia.
    rewrite firstn_app_le by (rewrite flat_bits_length; lia).
    symmetry. apply firstn_all2. rewrite flat_bits_length. lia.
Qed.

Lemma values_app : forall lookup a b, values_spec lookup (a ++ b) = values_spec lookup a ++ values_spec lookup b.
Proof. intros. unfold values_spec. rewrite map_app, filter_app. reflexivity. Qed.

Lemma values_foreign : forall lookup l, Forall (fun c => ~ (0 <= lookup c < 256)) l -> values_spec lookup l = [].
Proof.
  induction l; intros; simpl; auto. inversion H; subst. unfold values_spec in *. simpl. rewrite IHl by auto.
  destruct (Z.leb_spec 0 (lookup a)); simpl; auto. destruct (Z.ltb_spec (lookup a) 256); auto. lia.
Qed.

Lemma values_alpha : forall n alpha lookup D,  (n <= 7)%nat ->
  (forall v, 0 <= v < 2 ^ Z.of_nat n -> lookup (alpha v) = v) ->
  Forall (fun x => 0 <= x < 2 ^ Z.of_nat n) D -> values_spec lookup (map alpha D) = D.
Proof.
  intros n alpha lookup D Hn Ha. induction D; intros; simpl; auto. inversion H; subst.
  unfold values_spec in *. simpl. rewrite Ha by auto. rewrite IHD by auto.
  assert (a < 256). { eapply Z.lt_le_trans. apply H2. change 256 with (2 ^ 8). apply Z.pow_le_mono_r; lia. }
  destruct (Z.leb_spec 0 a); try lia. destruct (Z.ltb_spec a 256); try lia. reflexivity.
Qed.

Lemma decode_encode_values : forall n alpha lookup pad msg text, (1 <= n <= 7)%nat -> bytes msg ->
  (forall v, 0 <= v < 2 ^ Z.of_nat n -> lookup (alpha v) = v) ->
  (forall p, pad = Some p -> ~ (0 <= lookup p < 256)) ->
  values_spec lookup text = values_spec lookup (encode_spec n alpha pad msg) ->
  decode_spec n lookup text = msg.
Proof.
  intros n alpha lookup pad msg text Hn Hm Ha Hp E.
  unfold decode_spec. rewrite E. unfold encode_spec. rewrite values_app.
  rewrite (values_alpha n) by (auto; try lia; apply recut_range).
  replace (values_spec lookup (match pad with None => [] | Some p => _ end)) with (@nil Z).
  - rewrite app_nil_r, recut_length.
    destruct (recut_recut n _ msg Hn Hm eq_refl) as [E1 E2]. rewrite E1. exact E2.
  - symmetry. apply values_foreign. destruct pad; [|constructor]. apply Forall_repeat. apply Hp; auto.
Qed.

(* ---------------- Grouper ---------------- *)

(** One byte at a time version of the Grouper. *)
Fixpoint gr_bytes (g : grouper) (ctr : nat) (l : list Z) : nat * list Z :=
  match l with
  | [] => (ctr, [])
  | b :: t =>
    let sep := if Nat.eqb ctr (gr_size g) then gr_sep g else [] in
    let c0 := if Nat.eqb ctr (gr_size g) then O else ctr in
    let '(c', o) := gr_bytes g (S c0) t in (c', sep ++ b :: o)
  end.

Lemma gr_bytes_app : forall g l1 l2 ctr,
  gr_bytes g ctr (l1 ++ l2) =
  let '(c1, o1) := gr_bytes g ctr l1 in let '(c2, o2) := gr_bytes g c1 l2 in (c2, o1 ++ o2).
Proof.
  induction l1; intros; simpl.
  - destruct (gr_bytes g ctr l2); reflexivity.
  - rewrite IHl1. destruct (gr_bytes g _ l1) as [c1 o1]. destruct (gr_bytes g c1 l2) as [c2 o2].
    rewrite <- app_assoc. reflexivity.
Qed.

Lemma gr_bytes_run : forall g l ctr, (ctr + length l <= gr_size g)%nat -> (ctr < gr_size g)%nat ->
  gr_bytes g ctr l = ((ctr + length l)%nat, l).
Proof.
  induction l; intros; simpl.
  - f_equal. lia.
  - simpl in H. destruct (Nat.eqb_spec ctr (gr_size g)); try lia. simpl.
    destruct l.
    + simpl. f_equal. lia.
    + rewrite IHl; simpl in *; try lia. f_equal. lia.
Qed.

Lemma gr_loop_bytes : forall g fuel l ctr, (0 < gr_size g)%nat -> (ctr <= gr_size g)%nat -> (length l <= fuel)%nat ->
  gr_loop fuel g ctr l = gr_bytes g ctr l.
Proof.
  induction fuel; intros l ctr Hg Hc Hf.
  - destruct l; simpl in *; try lia. reflexivity.
  - destruct l as [|b t]; [reflexivity|].
    cbn [gr_loop].
    set (sep := if Nat.eqb ctr (gr_size g) then gr_sep g else []).
    set (c0 := if Nat.eqb ctr (gr_size g) then 0%nat else ctr).
    assert (Hc0 : (c0 < gr_size g)%nat) by (unfold c0; destruct (Nat.eqb_spec ctr (gr_size g)); lia).
    set (len := Nat.min (length (b :: t)) (gr_size g - c0)).
    assert (Hlen : (0 < len <= length (b :: t))%nat) by (unfold len; simpl length; lia).
    rewrite IHfuel; auto; [|unfold len; lia|rewrite skipn_length; simpl length in *; lia].
    assert (E : gr_bytes g ctr (b :: t) = let '(c', o) := gr_bytes g c0 (b :: t) in (c', sep ++ o)).
    { cbn [gr_bytes]. fold sep c0. destruct (Nat.eqb_spec c0 (gr_size g)); try lia. simpl app at 3.
      destruct (gr_bytes g (S c0) t); reflexivity. }
    rewrite E. clear E.
    replace (gr_bytes g c0 (b :: t)) with (gr_bytes g c0 (firstn len (b :: t) ++ skipn len (b :: t)))
      by (rewrite firstn_skipn; reflexivity).
    rewrite gr_bytes_app.
    assert (L : length (firstn len (b :: t)) = len) by (apply firstn_length_le'; lia).
    rewrite (gr_bytes_run g (firstn len (b :: t)) c0) by (rewrite ?L; unfold len; lia).
    rewrite L. destruct (gr_bytes g (c0 + len) (skipn len (b :: t))). reflexivity.
Qed.

Lemma gr_bytes_ctr : forall g l ctr c o, (0 < gr_size g)%nat -> (ctr <= gr_size g)%nat ->
  gr_bytes g ctr l = (c, o) -> (c <= gr_size g)%nat.
Proof.
  induction l; intros; simpl in *.
  - inversion H1; subst; auto.
  - destruct (gr_bytes g (S _) l) as [c' o'] eqn:E. inversion H1; subst. eapply IHl; [auto| |exact E].
    destruct (Nat.eqb_spec ctr (gr_size g)); lia.
Qed.

(** The counter before byte number [i] of a message. *)
Definition ctr_at (g i : nat) : nat := if Nat.eqb i 0 then O else S ((i - 1) mod g).

Lemma gr_bytes_spec : forall g all l pre, (0 < gr_size g)%nat -> all = pre ++ l ->
  gr_bytes g (ctr_at (gr_size g) (length pre)) l =
  (ctr_at (gr_size g) (length all),
   concat (map (fun i => (if Nat.ltb 0 i && Nat.ltb 0 (gr_size g) && Nat.eqb (i mod gr_size g) 0 then gr_sep g else []) ++ [nth i all 0])
              (seq (length pre) (length l)))).
Proof.
  induction l; intros pre Hg E; simpl.
  - subst. rewrite app_nil_r. reflexivity.
  - set (i := length pre). set (G := gr_size g) in *.
    assert (C : (if Nat.eqb (ctr_at G i) G then gr_sep g else []) =
                (if Nat.ltb 0 i && Nat.ltb 0 G && Nat.eqb (i mod G) 0 then gr_sep g else [])
             /\ S (if Nat.eqb (ctr_at G i) G then 0%nat else ctr_at G i) = ctr_at G (S i)).
    { unfold ctr_at. destruct (Nat.eqb_spec i 0) as [->|Hi].
      - change (Nat.eqb 0 0) with true. change (Nat.ltb 0 0) with false. cbv iota. destruct (Nat.eqb_spec 0 G); try lia.
        change (Nat.eqb 1 0) with false. change (1 - 1)%nat with 0%nat. cbv iota. rewrite Nat.mod_0_l by lia. auto.
      - destruct (Nat.ltb_spec 0 i); try lia. destruct (Nat.ltb_spec 0 G); try lia. cbn [andb].
        change (Nat.eqb (S i) 0) with false. cbv iota. replace (S i - 1)%nat with i by lia.
        pose proof (Nat.div_mod (i - 1) G ltac:(lia)) as DM. pose proof (Nat.mod_upper_bound (i - 1) G ltac:(lia)) as MU.
        destruct (Nat.eqb_spec (S ((i - 1) mod G)) G) as [E1|E1].
        + assert (M0 : (i mod G = 0)%nat).
          { symmetry. apply Nat.mod_unique with (q := S ((i - 1) / G)); nia. }
          rewrite M0. auto.
        + assert (M0 : (i mod G = S ((i - 1) mod G))%nat).
          { symmetry. apply Nat.mod_unique with (q := ((i - 1) / G)%nat); nia. }
          rewrite M0. auto. }
    destruct C as [C1 C2]. rewrite C1, C2.
    replace (S i) with (length (pre ++ [a])) by (rewrite app_length; simpl; unfold i; lia).
    rewrite IHl; [|auto|rewrite <- app_assoc; auto]. f_equal.
    rewrite <- app_assoc. f_equal. simpl.
    f_equal. subst all. rewrite app_nth2 by (unfold i; lia). unfold i. rewrite Nat.sub_diag. reflexivity.
Qed.

Lemma group_spec_zero : forall sep l, group_spec 0 sep l = l.
Proof.
  intros. unfold group_spec.
  assert (G : forall l pre, concat (map (fun i => (if Nat.ltb 0 i && Nat.ltb 0 0 && Nat.eqb (i mod 0) 0 then sep else []) ++ [nth i (pre ++ l) 0]) (seq (length pre) (length l))) = l).
  { clear l. induction l; intros; simpl; auto.
    rewrite andb_false_r. simpl. rewrite app_nth2, Nat.sub_diag by lia. simpl. f_equal.
    replace (S (length pre)) with (length (pre ++ [a])) by (rewrite app_length; simpl; lia).
    replace (pre ++ a :: l) with ((pre ++ [a]) ++ l) by (rewrite <- app_assoc; reflexivity). apply IHl. }
  apply (G l []).
Qed.

Definition gr_any (g : grouper) (ctr : nat) (l : list Z) : nat * list Z :=
  if Nat.eqb (gr_size g) 0 then (ctr, l) else gr_bytes g ctr l.

Lemma gr_any_app : forall g l1 l2 ctr,
  gr_any g ctr (l1 ++ l2) =
  let '(c1, o1) := gr_any g ctr l1 in let '(c2, o2) := gr_any g c1 l2 in (c2, o1 ++ o2).
Proof.
  intros. unfold gr_any. destruct (Nat.eqb (gr_size g) 0). reflexivity. apply gr_bytes_app.
Qed.

Lemma gr_any_spec : forall g l, snd (gr_any g 0 l) = group_spec (gr_size g) (gr_sep g) l.
Proof.
  intros. unfold gr_any. destruct (Nat.eqb_spec (gr_size g) 0) as [E|E].
  - rewrite E. rewrite group_spec_zero. reflexivity.
  - pose proof (gr_bytes_spec g l l [] ltac:(lia) eq_refl) as H. simpl length in H.
    change (ctr_at (gr_size g) 0) with 0%nat in H. rewrite H. reflexivity.
Qed.

Definition gr_ok (g : grouper) (ctr : nat) : Prop := gr_size g = 0%nat \/ (ctr <= gr_size g)%nat.

Lemma gr_put_any : forall g ctr l e, gr_ok g ctr ->
  gr_put g ctr l e = let '(c1, o1) := gr_any g ctr l in if e then (0%nat, o1 ++ gr_term g) else (c1, o1).
Proof.
  intros. unfold gr_put, gr_any. destruct (Nat.eqb_spec (gr_size g) 0); auto.
  rewrite gr_loop_bytes; auto; try lia. destruct H; lia.
Qed.

Lemma gr_any_ok : forall g ctr l, gr_ok g ctr -> gr_ok g (fst (gr_any g ctr l)).
Proof.
  intros. unfold gr_any. destruct (Nat.eqb_spec (gr_size g) 0); simpl; auto.
  destruct (gr_bytes g ctr l) as [c o] eqn:E. right. simpl. eapply gr_bytes_ctr; [| |exact E]; try lia. destruct H; lia.
Qed.

Lemma gr_run_app : forall g h1 h2 c,
  gr_run g c (h1 ++ h2) =
  let '(c1, o1) := gr_run g c h1 in let '(c2, o2) := gr_run g c1 h2 in (c2, o1 ++ o2).
Proof.
  induction h1 as [|[l e] t IH]; intros; simpl.
  - destruct (gr_run g c h2); reflexivity.
  - destruct (gr_put g c l e) as [c1 o]. rewrite IH.
    destruct (gr_run g c1 t) as [c2 o2]. destruct (gr_run g c2 h2); reflexivity.
Qed.

Lemma gr_run_chunks : forall g cs c, gr_ok g c ->
  exists tr, gr_run g c (map (fun x => (x, false)) cs) = (fst (gr_any g c (concat cs)), tr) /\
        Forall (fun x => snd x = false) tr /\ concat (map fst tr) = snd (gr_any g c (concat cs)).
Proof.
  induction cs; intros; simpl.
  - exists []. unfold gr_any. destruct (Nat.eqb (gr_size g) 0); auto.
  - rewrite gr_put_any, gr_any_app by auto. pose proof (gr_any_ok g c a H) as H1.
    destruct (gr_any g c a) as [s1 o1]. simpl in H1.
    destruct (IHcs s1 H1) as [tr [Et [Ft Ct]]]. rewrite Et.
    destruct (gr_any g s1 (concat cs)) as [s2 o2].
    exists ((o1, false) :: tr). split; auto. split; [constructor; auto|]. simpl in *. rewrite Ct. reflexivity.
Qed.

Lemma gr_run_ok : forall g ms,
  exists tr, gr_run g 0 (history_of ms) = (0%nat, tr) /\
    messages_out [] tr = map (fun m => group_spec (gr_size g) (gr_sep g) (message_of m) ++ gr_term g) ms.
Proof.
  induction ms as [|m ms IH].
  - exists []. auto.
  - unfold history_of. cbn [flat_map]. fold (history_of ms).
    destruct m as [cs last]. unfold message_of at 1. simpl fst; simpl snd.
    assert (OK : gr_ok g 0) by (right; lia).
    destruct (gr_run_chunks g cs 0 OK) as [tr [Er [Fr Cr]]].
    destruct IH as [tr' [E' M']].
    rewrite <- app_assoc, gr_run_app, Er. simpl. rewrite gr_put_any by (apply gr_any_ok; auto).
    pose proof (gr_any_spec g (concat cs ++ last)) as S. rewrite gr_any_app in S.
    destruct (gr_any g 0 (concat cs)) as [c1 o1]. simpl in *. destruct (gr_any g c1 last) as [c2 o2].
    rewrite E'. eexists. split; [reflexivity|]. rewrite messages_out_app_false by auto. simpl. f_equal; auto.
    rewrite <- S. simpl. rewrite Cr, app_assoc. reflexivity.
Qed.

(* ---------------- encoder + grouper pipeline ---------------- *)

Lemma encgr_run_factor : forall n alpha pad g h s c s' tr,
  enc_run n alpha pad s h = Some (s', tr) ->
  encgr_run n alpha pad g (s, c) h = Some ((s', fst (gr_run g c tr)), snd (gr_run g c tr)).
Proof.
  induction h as [|[l e] t IH]; intros s c s' tr E; simpl in *.
  - inversion E; subst. reflexivity.
  - unfold encgr_put. simpl.
    destruct (enc_put n alpha pad s l e) as [[s1 o]|]; [|discriminate].
    destruct (enc_run n alpha pad s1 t) as [[s2 os]|] eqn:E2; [|discriminate]. inversion E; subst; clear E.
    simpl. destruct (gr_put g c o e) as [c1 o2]. rewrite (IH s1 c1 s' os E2).
    destruct (gr_run g c1 os). reflexivity.
Qed.

(** Any trace is a history of some messages followed by an unfinished message. *)
Lemma history_split : forall (tr : list (list Z * bool)), exists ms cs,
  tr = history_of ms ++ map (fun c => (c, false)) cs.
Proof.
  induction tr as [|[o e] t IH].
  - exists [], []. reflexivity.
  - destruct IH as [ms [cs E]]. destruct e.
    + exists (([], o) :: ms), cs. rewrite E. reflexivity.
    + destruct ms as [|[cs0 last] ms].
      * exists [], (o :: cs). rewrite E. reflexivity.
      * exists ((o :: cs0, last) :: ms), cs. rewrite E. reflexivity.
Qed.

Lemma messages_out_history : forall ms cs acc,
  messages_out acc (history_of ms ++ map (fun c => (c, false)) cs)
  = match ms with [] => [] | m :: t => (acc ++ message_of m) :: map message_of t end.
Proof.
  induction ms as [|m ms IH]; intros.
  - simpl. revert acc. induction cs; simpl; auto.
  - unfold history_of. cbn [flat_map]. fold (history_of ms). rewrite <- !app_assoc.
    rewrite messages_out_app_false by (rewrite Forall_map; apply Forall_forall; auto).
    rewrite map_map. simpl. rewrite map_id. f_equal.
    + unfold message_of. rewrite <- app_assoc. reflexivity.
    + rewrite IH. destruct ms; reflexivity.
Qed.

Lemma gr_run_messages : forall g tr,
  messages_out [] (snd (gr_run g 0 tr)) =
  map (fun m => group_spec (gr_size g) (gr_sep g) m ++ gr_term g) (messages_out [] tr).
Proof.
  intros. destruct (history_split tr) as [ms [cs ->]].
  rewrite gr_run_app. destruct (gr_run_ok g ms) as [tr1 [E1 M1]]. rewrite E1.
  destruct (gr_run_chunks g cs 0) as [tr2 [E2 [F2 C2]]]; [right; lia|]. rewrite E2. simpl.
  rewrite messages_out_history.
  replace (messages_out [] (tr1 ++ tr2)) with (messages_out [] tr1).
  - rewrite M1. destruct ms; simpl; auto. f_equal. rewrite map_map. reflexivity.
  - clear - F2. generalize (@nil Z). induction tr1 as [|[o e] t IH]; intros acc; simpl.
    + revert acc. induction tr2 as [|[o e] t IH]; intros; simpl; auto. inversion F2; subst. simpl in H1. subst. auto.
    + destruct e; rewrite <- IH; auto.
Qed.

Lemma values_group : forall lookup g sep l, Forall (fun c => ~ (0 <= lookup c < 256)) sep ->
  values_spec lookup (group_spec g sep l) = values_spec lookup l.
Proof.
  intros lookup g sep l Hs. unfold group_spec.
  assert (G : forall l pre, values_spec lookup (concat (map (fun i => (if Nat.ltb 0 i && Nat.ltb 0 g && Nat.eqb (i mod g) 0 then sep else []) ++ [nth i (pre ++ l) 0]) (seq (length pre) (length l)))) = values_spec lookup l).
  { clear l. induction l; intros; simpl; auto.
    rewrite !values_app. 
    replace (values_spec lookup (if Nat.ltb 0 (length pre) && Nat.ltb 0 g && Nat.eqb (length pre mod g) 0 then sep else [])) with (@nil Z)
      by (destruct (Nat.ltb 0 (length pre) && Nat.ltb 0 g && Nat.eqb (length pre mod g) 0); auto; symmetry; apply values_foreign; auto).
    rewrite app_nth2, Nat.sub_diag by lia. simpl nth.
    transitivity (values_spec lookup [a] ++ values_spec lookup l); [|symmetry; apply (values_app lookup [a] l)].
    rewrite app_nil_l. f_equal.
    replace (S (length pre)) with (length (pre ++ [a])) by (rewrite app_length; simpl; lia).
    replace (pre ++ a :: l) with ((pre ++ [a]) ++ l) by (rewrite <- app_assoc; reflexivity). apply IHl. }
  apply (G l []).
Qed.

(** The decoder only sees alphabet characters, whatever the state and the table. *)
Lemma dec_bytes_filter : forall n lookup l s,
  dec_bytes n lookup s l = dec_bytes n lookup s (filter (fun c => (0 <=? lookup c) && (lookup c <? 256)) l).
Proof.
  induction l; intros; simpl; auto.
  destruct ((0 <=? lookup a) && (lookup a <? 256)) eqn:E.
  - simpl. destruct (dec_byte n lookup s a). rewrite IHl. reflexivity.
  - rewrite dec_byte_skip.
    + rewrite IHl. destruct (dec_bytes n lookup s (filter _ l)). reflexivity.
    + intros [H1 H2]. apply andb_false_iff in E. rewrite Z.leb_gt, Z.ltb_ge in E. lia.
Qed.

(** Generic histories of the decoder (any table): outputs per message depend on the concatenation only. *)
Definition dec_one (n : nat) (lookup : Z -> Z) (s : bn_state) (text : list Z) : bn_state * list Z :=
  let '(s1, o1) := dec_bytes n lookup s text in let '(s2, o2) := dec_end s1 in (s2, o1 ++ o2).

Fixpoint dec_all (n : nat) (lookup : Z -> Z) (s : bn_state) (texts : list (list Z)) : bn_state * list (list Z) :=
  match texts with
  | [] => (s, [])
  | t :: r => let '(s1, o) := dec_one n lookup s t in let '(s2, os) := dec_all n lookup s1 r in (s2, o :: os)
  end.

Lemma dec_run_all : forall n lookup ms s,
  fst (dec_run n lookup s (history_of ms)) = fst (dec_all n lookup s (map message_of ms)) /\
  messages_out [] (snd (dec_run n lookup s (history_of ms))) = snd (dec_all n lookup s (map message_of ms)).
Proof.
  induction ms as [|[cs last] ms IH]; intros; [split; reflexivity|].
  destruct (dec_run_chunks n lookup cs s) as [tr [Er [Fr Cr]]].
  destruct (dec_bytes n lookup s (concat cs)) as [sa oa] eqn:Ea. simpl in Er, Cr.
  assert (E1 : dec_run n lookup s (history_of ((cs, last) :: ms)) =
    let '(s1, o) := dec_put n lookup sa last true in
    let '(s2, os) := dec_run n lookup s1 (history_of ms) in (s2, tr ++ (o, true) :: os)).
  { unfold history_of. cbn [flat_map fst snd]. fold (history_of ms).
    rewrite <- app_assoc, dec_run_app, Er. cbn [app dec_run].
    destruct (dec_put n lookup sa last true) as [s1 o]. destruct (dec_run n lookup s1 (history_of ms)). reflexivity. }
  rewrite E1. cbn [map dec_all]. unfold dec_one, message_of at 1 3, dec_put. cbn [fst snd]. rewrite dec_bytes_app, Ea.
  destruct (dec_bytes n lookup sa last) as [sb ob]. destruct (dec_end sb) as [se oe].
  specialize (IH se). destruct (dec_run n lookup se (history_of ms)) as [s2 tr2].
  destruct (dec_all n lookup se (map message_of ms)) as [s3 os]. cbn [fst snd] in *. destruct IH as [I1 I2].
  split; auto. rewrite messages_out_app_false by auto. cbn [messages_out app]. rewrite I2, Cr. rewrite <- app_assoc. reflexivity.
Qed.

(** Lookup tables built by InitializeDecodingLookupArray *)
Lemma init_lookup_aux_notin : forall al i acc c, ~ In c al -> init_lookup_aux al i acc c = acc c.
Proof.
  induction al; intros; simpl; auto. rewrite IHal by (simpl in H; tauto).
  destruct (Z.eqb_spec c a); auto. subst. simpl in H. tauto.
Qed.

Lemma init_lookup_aux_nth : forall al i acc k, NoDup al -> (k < length al)%nat ->
  init_lookup_aux al i acc (nth k al 0) = i + Z.of_nat k.
Proof.
  induction al; intros i acc k Hd Hk; simpl in Hk; try lia. inversion Hd; subst. destruct k.
  - simpl. rewrite init_lookup_aux_notin by auto. rewrite Z.eqb_refl. lia.
  - simpl. rewrite IHal by (auto; lia). lia.
Qed.

Lemma init_lookup_range : forall al i acc c,
  (init_lookup_aux al i acc c = acc c) \/ (i <= init_lookup_aux al i acc c < i + Z.of_nat (length al)).
Proof.
  induction al; intros; cbn [init_lookup_aux length]; auto.
  destruct (IHal (i + 1) (fun c0 => if c0 =? a then i else acc c0) c) as [E|E].
  - rewrite E. destruct (c =? a); auto. right. lia.
  - right. lia.
Qed.
