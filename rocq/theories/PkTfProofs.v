(** Proofs about the trapdoor function schemes with RSA. *)
From Coq Require Import ZArith Znumtheory List Bool Arith Lia.
From Verif Require Import Base WordsModel WordsSpec WordsProofs NbModel IntegerModel IntegerSpec IntegerBitProofs IntegerCodecProofs IntegerProofs NbSpec RsaModel RsaSpec RsaProofs RngModel RngSpec RngProofs PkPadModel PkPadSpec PkPadProofs NumberTheory NbProofs.
Import ListNotations.
Local Open Scope Z_scope.

Section Tf.
Variable w : Z.
Hypothesis Hwb : word_bits w.
Local Instance tf_big : bigw w := word_bits_big w Hwb.
Notation is_int := (is_int w).
Lemma tf_bits_int n v : is_int n v -> 1 < v -> tf_bits w n = Z.log2 v.
Proof. intros Hn N. unfold tf_bits, sat_sub. rewrite (bit_count_int w n v Hwb Hn). destruct (Z.eqb_spec v 0); [lia|]. rewrite Z.abs_eq by lia. pose proof (Z.log2_pos v ltac:(lia)). rewrite Z.gtb_ltb. destruct (Z.ltb_spec 1 (Z.log2 v + 1)); lia. Qed.
Lemma tf_bytes_int n v : is_int n v -> 1 < v -> v mod 2 = 1 -> tf_bytes w n = octets v.
Proof.
  intros Hn N O. unfold tf_bytes, octets. assert (N3 : 2 < v) by (destruct (Z.eq_dec v 2) as [->|]; [discriminate|lia]). destruct (byte_count_int w _ _ Hwb (decr_int w _ _ Hn)) as (_ & C). cbv zeta in C. specialize (C ltac:(lia)). set (k := byte_count w (decr w n)) in *. clearbody k. rewrite Z.abs_eq in C by lia. destruct C as (K & C1 & C2).
  assert (C3 : v < 256 ^ Z.of_nat k).
  { assert (E : v = 256 ^ Z.of_nat k \/ v < 256 ^ Z.of_nat k) by lia. destruct E as [E|]; auto. exfalso. rewrite E in O. replace (Z.of_nat k) with (1 + (Z.of_nat k - 1)) in O by lia. rewrite Z.pow_add_r in O by lia. change (256 ^ 1) with (128 * 2) in O. rewrite <- Z.mul_assoc, (Z.mul_comm 2), Z.mul_assoc, Z.mod_mul in O by lia. discriminate. }
  replace (Z.log2 v / 8) with (Z.of_nat k - 1); [lia|]. change 256 with (2 ^ 8) in C1, C3. rewrite <- !Z.pow_mul_r in C1, C3 by lia. apply Z.log2_lt_pow2 in C3; [|lia]. assert (C4 : 8 * (Z.of_nat k - 1) <= Z.log2 v) by (apply Z.log2_le_pow2; lia).
  apply Z.div_unique with (Z.log2 v - 8 * (Z.of_nat k - 1)); lia.
Qed.
Lemma octets_holds v x : 1 < v -> 0 <= x < v -> x < 256 ^ Z.of_nat (octets v).
Proof.
  intros N R. unfold octets. pose proof (Z.log2_nonneg v). pose proof (Z.div_pos (Z.log2 v) 8 ltac:(lia) ltac:(lia)). rewrite Z2Nat.id by lia. change 256 with (2 ^ 8). rewrite <- Z.pow_mul_r by lia. destruct (Z.log2_spec v ltac:(lia)) as (_ & U). eapply Z.lt_le_trans; [|apply Z.pow_le_mono_r with (b := Z.succ (Z.log2 v)); [lia|]]; [lia|]. pose proof (Z.mod_pos_bound (Z.log2 v) 8 ltac:(lia)). pose proof (Z.div_mod (Z.log2 v) 8 ltac:(lia)). lia.
Qed.
Lemma block_small v block : 1 < v -> block_of (Z.log2 v) block -> 0 <= be_val block < v.
Proof. intros N (B & _ & L). split; [apply be_val_bounds; auto|]. destruct (Z.log2_spec v ltac:(lia)). lia. Qed.
Lemma block_back bits block : block_of bits block -> be_bytes (Z.to_nat (block_bytes bits)) (be_val block) = block.
Proof. intros (B & L & _). rewrite <- L, Nat2Z.id. apply be_bytes_val; auto. Qed.
Lemma block_bytes_room bits : 0 <= bits -> 2 ^ bits <= 256 ^ block_bytes bits /\ 0 <= block_bytes bits.
Proof. intros P. assert (bits <= 8 * block_bytes bits) by (unfold block_bytes; pose proof (Z.div_mod (bits + 7) 8 ltac:(lia)); pose proof (Z.mod_pos_bound (bits + 7) 8 ltac:(lia)); lia). split; [|lia]. change 256 with (2 ^ 8). rewrite <- Z.pow_mul_r by lia. apply Z.pow_le_mono_r; lia. Qed.
Lemma zeros_blen n : 0 <= n -> blen (zeros n) = n.
Proof. intros. unfold zeros. rewrite blen_repeat. lia. Qed.

Theorem tf_encrypt_spec fuel max pad n e vn ve m block : is_int n vn -> is_int e ve -> public_key vn ve -> ve < 2 ^ (Z.of_nat fuel - 1) ->
  blen m <= max (Z.log2 vn) -> pad m (Z.log2 vn) (zeros (block_bytes (Z.log2 vn))) = ROk block -> bytes block ->
  tf_encrypt w fuel max pad n e m = ROk (be_bytes (octets vn) (be_val block ^ ve mod vn)).
Proof.
  intros Hn He (N & O & E & OE) F L P B. unfold tf_encrypt. rewrite (tf_bits_int n vn) by auto. rewrite Z.gtb_ltb. destruct (Z.ltb_spec (max (Z.log2 vn)) (blen m)); [lia|]. change (bits_to_bytes (Z.log2 vn)) with (block_bytes (Z.log2 vn)). rewrite P. cbn [rbind].
  destruct (apply_int w Hwb fuel n e _ vn ve _ Hn He (decode_u w Hwb block B)) as (c & -> & Hc); auto. cbn [rbind]. rewrite (encode_unsigned w Hwb _ _ _ Hc), (tf_bytes_int n vn) by auto. rewrite Z.abs_eq; auto. apply Z.mod_pos_bound. lia.
Qed.
Theorem tf_encrypt_too_long fuel max pad n e vn ve m : is_int n vn -> is_int e ve -> public_key vn ve -> max (Z.log2 vn) < blen m -> tf_encrypt w fuel max pad n e m = RThrow.
Proof. intros Hn He (N & O & E & OE) L. unfold tf_encrypt. rewrite (tf_bits_int n vn) by auto. rewrite Z.gtb_ltb. destruct (Z.ltb_spec (max (Z.log2 vn)) (blen m)); [auto|lia]. Qed.

Lemma key_public m : rsa_equations m -> public_key (n_ m) (e_ m).
Proof. intros Eq. pose proof (n_big m Eq) as (N1 & _). pose proof (ed_odd m Eq) as (OE & _ & _ & _ & ON). pose proof Eq as (_ & _ & _ & E1 & _). unfold public_key. intuition lia. Qed.
Definition within (room v : Z) : Z := if v <? room then v else 0.
Theorem tf_decrypt_value fuel unpad k m blocks c : holds w k m -> rsa_key m -> blinding_blocks (n_ m) blocks -> n_ m < 2 ^ (Z.of_nat fuel - 1) -> bytes c -> length c = octets (n_ m) -> be_val c < n_ m ->
  (tf_decrypt w fuel unpad k blocks c = RStuck /\ Forall (fun b => ~ blinds (n_ m) b) blocks) \/
  let size := block_bytes (Z.log2 (n_ m)) in
  tf_decrypt w fuel unpad k blocks c = unpad (be_bytes (Z.to_nat size) (within (256 ^ size) (be_val c ^ d_ m mod n_ m))) (Z.log2 (n_ m)).
Proof.
  intros Hk Key F L B Lc Rc. pose proof Key as (_ & _ & Eq). pose proof (key_public m Eq) as (N & O & _). pose proof Hk as (Hn & _). unfold tf_decrypt. rewrite (tf_bytes_int _ _ Hn N O), Lc, Nat.eqb_refl. cbn [negb].
  destruct (inverse_int w Hwb fuel k m blocks _ _ Hk Key (decode_u w Hwb c B) ltac:(split; [apply be_val_bounds; auto|auto]) F L) as [(-> & S)|(y & -> & Hy)]; [left; auto|right]. cbn [rbind]. cbv zeta. rewrite (tf_bits_int _ _ Hn N). change (bits_to_bytes (Z.log2 (n_ m))) with (block_bytes (Z.log2 (n_ m))).
  set (v := be_val c ^ d_ m mod n_ m) in *. assert (V : 0 <= v < n_ m) by (apply Z.mod_pos_bound; lia). f_equal. destruct (byte_count_int w _ _ Hwb Hy) as (C0 & C1). cbv zeta in C0, C1. destruct (block_bytes_room (Z.log2 (n_ m)) (Z.log2_nonneg _)) as (_ & Ps). set (size := block_bytes (Z.log2 (n_ m))) in *. unfold within. rewrite Z.gtb_ltb.
  destruct (Z.eq_dec v 0) as [V0|V0].
  - rewrite (C0 V0). destruct (Z.ltb_spec size 0); [lia|]. rewrite (encode_unsigned w Hwb _ _ _ Hy), V0. destruct (0 <? 256 ^ size); reflexivity.
  - destruct (C1 V0) as (K & L1 & L2). rewrite Z.abs_eq in * by lia. destruct (Z.ltb_spec size (Z.of_nat (byte_count w y))) as [G|G].
    + rewrite (encode_unsigned w Hwb _ _ _ (zero_int w)). destruct (Z.ltb_spec v (256 ^ size)) as [X|X]; [|reflexivity]. exfalso. pose proof (Z.pow_le_mono_r 256 size (Z.of_nat (byte_count w y) - 1) ltac:(lia) ltac:(lia)). lia.
    + rewrite (encode_unsigned w Hwb _ _ _ Hy), Z.abs_eq by lia. destruct (Z.ltb_spec v (256 ^ size)) as [X|X]; [reflexivity|]. exfalso. pose proof (Z.pow_le_mono_r 256 (Z.of_nat (byte_count w y)) size ltac:(lia) ltac:(lia)). lia.
Qed.
Lemma crt_back m x : rsa_key m -> 0 <= x < n_ m -> (x ^ e_ m mod n_ m) ^ d_ m mod n_ m = x /\ (x ^ d_ m mod n_ m) ^ e_ m mod n_ m = x.
Proof.
  intros Key R. pose proof Key as (_ & _ & Eq). pose proof Eq as (_ & _ & _ & E1 & D1 & _). split.
  - etransitivity; [apply (eqm_pow (n_ m)), eqm_mod|]. rewrite <- Z.pow_mul_r by lia. etransitivity; [apply rsa_exponent; auto|]. apply Z.mod_small. auto.
  - etransitivity; [apply (eqm_pow (n_ m)), eqm_mod|]. rewrite <- Z.pow_mul_r by lia. rewrite (Z.mul_comm (d_ m)). etransitivity; [apply rsa_exponent; auto|]. apply Z.mod_small. auto.
Qed.
(** Decryption gives the padded block back. *)
Theorem tf_round_trip fuel max pad unpad k m blocks msg block : holds w k m -> rsa_key m -> blinding_blocks (n_ m) blocks -> n_ m < 2 ^ (Z.of_nat fuel - 1) ->
  blen msg <= max (Z.log2 (n_ m)) -> pad msg (Z.log2 (n_ m)) (zeros (block_bytes (Z.log2 (n_ m)))) = ROk block -> block_of (Z.log2 (n_ m)) block ->
  exists c, tf_encrypt w fuel max pad (k_n k) (k_e k) msg = ROk c /\ length c = octets (n_ m) /\
  ((tf_decrypt w fuel unpad k blocks c = RStuck /\ Forall (fun b => ~ blinds (n_ m) b) blocks) \/ tf_decrypt w fuel unpad k blocks c = unpad block (Z.log2 (n_ m))).
Proof.
  intros Hk Key F L Lm P B. pose proof Key as (_ & _ & Eq). pose proof (key_public m Eq) as Pub. pose proof Pub as (N & O & Re & Oe). pose proof Hk as (Hn & He & _). eexists. split; [apply (tf_encrypt_spec fuel max pad _ _ (n_ m) (e_ m) msg block); auto; [lia|apply B]|]. split; [apply be_bytes_length|].
  set (v := be_val block ^ e_ m mod n_ m). assert (V : 0 <= v < n_ m) by (apply Z.mod_pos_bound; lia). assert (EV : be_val (be_bytes (octets (n_ m)) v) = v) by (rewrite be_val_bytes_mod; apply Z.mod_small; split; [lia|apply octets_holds; auto]).
  destruct (tf_decrypt_value fuel unpad k m blocks (be_bytes (octets (n_ m)) v) Hk Key F L ltac:(apply be_bytes_bytes) ltac:(apply be_bytes_length) ltac:(lia)) as [S|E]; [left; auto|right]. cbv zeta in E. rewrite E, EV. pose proof (block_small _ _ N B) as R. unfold v. rewrite (proj1 (crt_back m _ Key R)). unfold within.
  destruct (block_bytes_room (Z.log2 (n_ m)) (Z.log2_nonneg _)) as (Q & _). destruct (Z.ltb_spec (be_val block) (256 ^ block_bytes (Z.log2 (n_ m)))) as [X|X]; [|destruct B as (_ & _ & B3); lia]. rewrite block_back; auto.
Qed.
Theorem tf_decrypt_length fuel unpad k m blocks c : holds w k m -> rsa_key m -> length c <> octets (n_ m) -> tf_decrypt w fuel unpad k blocks c = RThrow.
Proof. intros Hk Key L. pose proof Key as (_ & _ & Eq). pose proof (key_public m Eq) as (N & O & _). pose proof Hk as (Hn & _). unfold tf_decrypt. rewrite (tf_bytes_int _ _ Hn N O). destruct (Nat.eqb_spec (length c) (octets (n_ m))); [contradiction|]. reflexivity. Qed.
Lemma root_any fuel k m a va r : holds w k m -> rsa_key m -> n_ m < 2 ^ (Z.of_nat fuel - 1) -> is_int a va -> modular_root w fuel a (k_dq k) (k_dp k) (k_q k) (k_p k) (k_u k) = ROk r -> exists v, is_int r v.
Proof.
  intros Hk Key L Ha Er. pose proof Key as (Pp & Pq & Eq). pose proof (n_big m Eq) as (N1 & N2 & N3). pose proof (equations_quick m Eq) as QK. pose proof (edp m Eq) as EP. pose proof (edq m Eq) as EQ. pose proof (coprime_pq m Eq) as CP. pose proof Hk as (Hn & He & Hd & Hp & Hq & Hdp & Hdq & Hu).
  destruct QK as ((_ & _ & E1 & _) & _ & _ & (D1 & _) & (DP & _) & (DQ & _) & U). pose proof Eq as (EN & _ & _ & _ & _ & _ & _ & _ & _ & _ & _ & UQ).
  destruct (modular_root_int w Hwb fuel a (k_dq k) (k_dp k) (k_q k) (k_p k) (k_u k) _ (dq_ m) (dp_ m) (q_ m) (p_ m) (u_ m) (e_ m) Ha Hdq Hdp Hq Hp Hu Pq Pp) as (y0 & v0 & E & Hy0 & _); auto; try lia.
  { intros Q. rewrite <- Q, Z.gcd_diag in CP. lia. }
  rewrite E in Er. injection Er as <-. eauto.
Qed.
(** Whatever is decrypted is the unpadding of the root of the ciphertext. *)
Theorem tf_decrypt_sound fuel unpad k m blocks c msg : holds w k m -> rsa_key m -> blinding_blocks (n_ m) blocks -> n_ m < 2 ^ (Z.of_nat fuel - 1) -> bytes c -> tf_decrypt w fuel unpad k blocks c = ROk (Some msg) ->
  length c = octets (n_ m) /\ be_val c < n_ m /\
  let size := block_bytes (Z.log2 (n_ m)) in unpad (be_bytes (Z.to_nat size) (within (256 ^ size) (be_val c ^ d_ m mod n_ m))) (Z.log2 (n_ m)) = ROk (Some msg).
Proof.
  intros Hk Key F L B E. destruct (Nat.eq_dec (length c) (octets (n_ m))) as [Lc|Lc]; [|rewrite (tf_decrypt_length _ _ k m) in E by auto; discriminate]. split; auto.
  assert (R : be_val c < n_ m).
  { unfold tf_decrypt in E. destruct (negb (length c =? tf_bytes w (k_n k))%nat); [discriminate|]. destruct (calculate_inverse w fuel k blocks (decode w false c)) as [y| | | |] eqn:EI; try discriminate. pose proof Key as (_ & _ & Eq). pose proof Eq as (_ & _ & _ & E1 & _).
    assert (Hroot : forall a va r, is_int a va -> modular_root w fuel a (k_dq k) (k_dp k) (k_q k) (k_p k) (k_u k) = ROk r -> exists v, is_int r v) by (intros; eapply root_any; eauto).
    destruct (inverse_checked w Hwb _ fuel k m blocks _ _ y Hk Hroot (decode_u w Hwb c B) F ltac:(lia) EI) as (v & _ & V & <-). apply Z.mod_pos_bound. lia. }
  split; auto. destruct (tf_decrypt_value fuel unpad k m blocks c Hk Key F L B Lc R) as [(S & _)|V]; [rewrite S in E; discriminate|]. cbv zeta in *. rewrite <- V. auto.
Qed.

Theorem tf_sign_spec fuel min rep k m blocks r : holds w k m -> rsa_key m -> blinding_blocks (n_ m) blocks -> n_ m < 2 ^ (Z.of_nat fuel - 1) ->
  min <= Z.log2 (n_ m) -> rep (Z.log2 (n_ m)) (zeros (block_bytes (Z.log2 (n_ m)))) = ROk r -> block_of (Z.log2 (n_ m)) r ->
  (tf_sign w fuel min rep k blocks = RStuck /\ Forall (fun b => ~ blinds (n_ m) b) blocks) \/ tf_sign w fuel min rep k blocks = ROk (be_bytes (octets (n_ m)) (be_val r ^ d_ m mod n_ m)).
Proof.
  intros Hk Key F L Hm P B. pose proof Key as (_ & _ & Eq). pose proof (key_public m Eq) as (N & O & _). pose proof Hk as (Hn & _). unfold tf_sign. rewrite (tf_bits_int _ _ Hn N). destruct (Z.ltb_spec (Z.log2 (n_ m)) min); [lia|]. change (bits_to_bytes (Z.log2 (n_ m))) with (block_bytes (Z.log2 (n_ m))). rewrite P. cbn [rbind].
  destruct (inverse_int w Hwb fuel k m blocks _ _ Hk Key (decode_u w Hwb r ltac:(apply B)) (block_small _ _ N B) F L) as [(-> & S)|(y & -> & Hy)]; [left; auto|right]. cbn [rbind]. rewrite (encode_unsigned w Hwb _ _ _ Hy), (tf_bytes_int _ _ Hn N O). rewrite Z.abs_eq; auto. apply Z.mod_pos_bound. lia.
Qed.
Theorem tf_input_spec fuel min n e vn ve sig : is_int n vn -> is_int e ve -> public_key vn ve -> ve < 2 ^ (Z.of_nat fuel - 1) -> min <= Z.log2 vn -> bytes sig ->
  tf_input_signature w fuel min n e sig = ROk (be_bytes (Z.to_nat (block_bytes (Z.log2 vn))) (within (2 ^ Z.log2 vn) (be_val sig ^ ve mod vn))).
Proof.
  intros Hn He (N & O & E & OE) F Hm B. unfold tf_input_signature. rewrite (tf_bits_int n vn) by auto. destruct (Z.ltb_spec (Z.log2 vn) min); [lia|]. destruct (apply_int w Hwb fuel n e _ vn ve _ Hn He (decode_u w Hwb sig B)) as (x & -> & Hx); auto. cbn [rbind]. change (bits_to_bytes (Z.log2 vn)) with (block_bytes (Z.log2 vn)). f_equal.
  rewrite (bit_count_int w _ _ Hwb Hx). set (v := be_val sig ^ ve mod vn) in *. assert (V : 0 <= v < vn) by (apply Z.mod_pos_bound; lia). unfold within. pose proof (Z.log2_nonneg vn). rewrite Z.gtb_ltb. destruct (Z.eqb_spec v 0) as [V0|V0].
  - destruct (Z.ltb_spec (Z.log2 vn) 0); [lia|]. rewrite (encode_unsigned w Hwb _ _ _ Hx), V0. destruct (0 <? 2 ^ Z.log2 vn); reflexivity.
  - rewrite Z.abs_eq by lia. destruct (Z.ltb_spec (Z.log2 vn) (Z.log2 v + 1)) as [G|G].
    + rewrite (encode_unsigned w Hwb _ _ _ (zero_int w)). destruct (Z.ltb_spec v (2 ^ Z.log2 vn)) as [X|X]; [|reflexivity]. exfalso. apply Z.log2_lt_pow2 in X; lia.
    + rewrite (encode_unsigned w Hwb _ _ _ Hx), Z.abs_eq by lia. destruct (Z.ltb_spec v (2 ^ Z.log2 vn)) as [X|X]; [reflexivity|]. exfalso. apply Z.log2_le_pow2 in X; lia.
Qed.
Theorem tf_input_short fuel min n e vn ve sig : is_int n vn -> is_int e ve -> public_key vn ve -> Z.log2 vn < min -> tf_input_signature w fuel min n e sig = RThrow.
Proof. intros Hn He (N & O & E & OE) L. unfold tf_input_signature. rewrite (tf_bits_int n vn) by auto. destruct (Z.ltb_spec (Z.log2 vn) min); [auto|lia]. Qed.
(** The representative of a signature that was made of [r] is [r]. *)
Theorem tf_sign_input fuel min k m r : holds w k m -> rsa_key m -> n_ m < 2 ^ (Z.of_nat fuel - 1) -> min <= Z.log2 (n_ m) -> block_of (Z.log2 (n_ m)) r ->
  tf_input_signature w fuel min (k_n k) (k_e k) (be_bytes (octets (n_ m)) (be_val r ^ d_ m mod n_ m)) = ROk r.
Proof.
  intros Hk Key L Hm B. pose proof Key as (_ & _ & Eq). pose proof (key_public m Eq) as Pub. pose proof Pub as (N & O & Re & Oe). pose proof Hk as (Hn & He & _). rewrite (tf_input_spec fuel min _ _ (n_ m) (e_ m)) by (auto; try lia; apply be_bytes_bytes). f_equal.
  set (v := be_val r ^ d_ m mod n_ m). assert (V : 0 <= v < n_ m) by (apply Z.mod_pos_bound; lia). rewrite be_val_bytes_mod, (Z.mod_small v) by (split; [lia|apply octets_holds; auto]). unfold v. rewrite (proj2 (crt_back m _ Key (block_small _ _ N B))). unfold within. destruct (Z.ltb_spec (be_val r) (2 ^ Z.log2 (n_ m))) as [X|X]; [|destruct B as (_ & _ & B3); lia]. apply block_back. auto.
Qed.
(** A verifier that accepts only blocks other than zero accepts just the signatures whose power is such a block. *)
Theorem tf_verify_exact fuel min n e vn ve sig (ver : list Z -> Z -> res bool) (good : list Z -> Prop) : is_int n vn -> is_int e ve -> public_key vn ve -> ve < 2 ^ (Z.of_nat fuel - 1) -> min <= Z.log2 vn -> bytes sig ->
  (forall r, block_of (Z.log2 vn) r -> (ver r (Z.log2 vn) = ROk true <-> good r)) -> (forall r, good r -> block_of (Z.log2 vn) r /\ be_val r <> 0) ->
  (tf_verify w fuel min ver n e sig = ROk true <-> exists r, good r /\ be_val sig ^ ve mod vn = be_val r).
Proof.
  intros Hn He Pub F Hm B Hver Hgood. unfold tf_verify. rewrite (tf_input_spec fuel min n e vn ve) by auto. cbn [rbind]. rewrite (tf_bits_int n vn) by (auto; apply Pub). set (v := be_val sig ^ ve mod vn). assert (V : 0 <= v < vn) by (apply Z.mod_pos_bound; destruct Pub; lia).
  destruct (block_bytes_room (Z.log2 vn) (Z.log2_nonneg _)) as (Q & Q2). pose proof (Z.pow_pos_nonneg 2 (Z.log2 vn) ltac:(lia) (Z.log2_nonneg _)) as Q3. set (x := within (2 ^ Z.log2 vn) v). assert (X : 0 <= x < 2 ^ Z.log2 vn) by (unfold x, within; destruct (Z.ltb_spec v (2 ^ Z.log2 vn)); lia).
  set (r := be_bytes (Z.to_nat (block_bytes (Z.log2 vn))) x). assert (Er : be_val r = x) by (unfold r; rewrite be_val_bytes_mod, Z2Nat.id by lia; apply Z.mod_small; lia).
  assert (Br : block_of (Z.log2 vn) r) by (split; [apply be_bytes_bytes|split; [unfold r; rewrite be_bytes_length; lia|lia]]). rewrite (Hver r Br). split.
  - intros G. exists r. split; auto. destruct (Hgood r G) as (_ & NZ). rewrite Er in NZ |- *. unfold x, within in *. destruct (v <? 2 ^ Z.log2 vn); congruence.
  - intros (r' & G & E). destruct (Hgood r' G) as (Br' & _). replace r with r'; auto. rewrite <- (block_back _ _ Br'). unfold r. f_equal. rewrite <- E. unfold x, within. destruct (Z.ltb_spec v (2 ^ Z.log2 vn)) as [|X2]; auto. destruct Br' as (_ & _ & B3). lia.
Qed.
End Tf.

(* ------------------------------------------------------------------ the blocks of the padding schemes fit *)
Lemma lead_pow bits : 0 <= bits -> 2 ^ bits = 2 ^ (bits mod 8) * 256 ^ (bits / 8).
Proof. intros P. pose proof (Z.div_mod bits 8 ltac:(lia)) as D. pose proof (Z.mod_pos_bound bits 8 ltac:(lia)). pose proof (Z.div_pos bits 8 P ltac:(lia)). change 256 with (2 ^ 8). rewrite <- Z.pow_mul_r, <- Z.pow_add_r by lia. f_equal. lia. Qed.
Lemma block_of_framed bits body : 0 <= bits -> bytes body -> blen (framed bits body) = block_bytes bits -> block_of bits (framed bits body).
Proof.
  intros P B L. destruct (lead_bytes bits P) as (E & _). pose proof L as L'. rewrite framed_lead in L'. split; [|split; [exact L|]].
  - unfold framed. destruct (bits mod 8 =? 0); cbn [app]; auto. constructor; auto. unfold byte. lia.
  - assert (V : be_val (framed bits body) = be_val body) by (unfold framed; destruct (bits mod 8 =? 0); cbn [app]; auto; rewrite be_val_cons; lia). rewrite V, (lead_pow bits P). pose proof (be_val_bounds body B) as (V0 & V1). change (Z.of_nat (length body)) with (blen body) in V1. replace (blen body) with (bits / 8) in V1 by lia.
    pose proof (Z.mod_pos_bound bits 8 ltac:(lia)). pose proof (Z.pow_pos_nonneg 2 (bits mod 8) ltac:(lia) ltac:(lia)). nia.
Qed.
Lemma pkcs_block_fits bits ps m : 0 <= bits -> non_zero_bytes ps -> bytes m -> blen (pkcs_block bits ps m) = block_bytes bits -> block_of bits (pkcs_block bits ps m).
Proof.
  intros P N B L. apply block_of_framed; auto. constructor; [unfold byte; lia|]. apply Forall_app. split; [|constructor; auto; unfold byte; lia]. eapply Forall_impl; [|exact N]. cbv beta. unfold byte. intros; lia.
Qed.
Lemma oaep_block_fits H hlen gam M bits seed label m block : hash_of H hlen -> masks_with gam M -> 0 <= bits -> bytes seed -> bytes m -> oaep_block H M bits seed label m block -> block_of bits block.
Proof.
  intros HH HM P Bs Bm (k & -> & L). cbv zeta in *. assert (MB : forall a b, bytes a -> bytes (xorl a (M b (length a)))) by (intros a b Ba; apply xorl_bytes; auto; apply HM). apply block_of_framed; auto. set (db := H label ++ repeat 0 k ++ 1 :: m).
  assert (Bd : bytes db) by (apply Forall_app; split; [apply HH|]; apply Forall_app; split; [apply Forall_forall; intros x X; apply repeat_spec in X; subst; unfold byte; lia|constructor; auto; unfold byte; lia]). apply Forall_app. split; apply MB; auto.
Qed.
Lemma signature_block_fits H hlen bits hid msg block : hash_of H hlen -> 0 <= bits -> bytes hid -> pkcs_signature_block bits hid (H msg) block -> block_of bits block /\ be_val block <> 0.
Proof.
  intros HH P Bi (n & _ & -> & L). assert (Bb : bytes (1 :: repeat 255 n ++ 0 :: hid ++ H msg)).
  { constructor; [unfold byte; lia|]. apply Forall_app. split; [apply Forall_forall; intros x X; apply repeat_spec in X; subst; unfold byte; lia|]. constructor; [unfold byte; lia|]. apply Forall_app. split; auto. apply HH. }
  split; [apply block_of_framed; auto|]. assert (V : be_val (framed bits (1 :: repeat 255 n ++ 0 :: hid ++ H msg)) = be_val (1 :: repeat 255 n ++ 0 :: hid ++ H msg)) by (unfold framed; destruct (bits mod 8 =? 0); cbn [app]; auto; rewrite (be_val_cons 0); lia). rewrite V, be_val_cons. inversion Bb as [|? ? _ B2]; subst. pose proof (be_val_bounds _ B2). pose proof (Z.pow_pos_nonneg 256 (Z.of_nat (length (repeat 255 n ++ 0 :: hid ++ H msg))) ltac:(lia) ltac:(lia)). lia.
Qed.
Lemma pss_block_of H hlen gam M bits hid msg r salt pad block : hash_of H hlen -> masks_with gam M -> 0 < bits -> bytes hid -> bytes r -> bytes salt -> pss_block H M bits hid msg r salt pad block -> block_of bits block /\ be_val block <> 0.
Proof.
  intros HH HM P Bi Br Bs G. pose proof G as (E & L). cbv zeta in *. set (h := pss_hash H msg r salt) in *. set (db := repeat 0 pad ++ 1 :: r ++ salt) in *. set (t := match hid with [] => 188 | _ => 204 end) in *. assert (Ht : byte t /\ 0 < t) by (unfold t, byte; destruct hid; lia).
  assert (Bd : bytes db) by (apply Forall_app; split; [apply Forall_forall; intros x X; apply repeat_spec in X; subst; unfold byte; lia|constructor; [unfold byte; lia|apply Forall_app; auto]]).
  assert (Bx : bytes (xorl db (M h (length db)))) by (apply xorl_bytes; auto; apply HM).
  pose proof (Z.mod_pos_bound bits 8 ltac:(lia)) as M8.
  assert (CT : forall l, bytes l -> bytes (clear_top bits l)).
  { intros l Bl. destruct Bl as [|b l Hb Bl]; [constructor|]. constructor; auto. unfold byte in *. destruct (Z.eqb_spec (bits mod 8) 0); auto. pose proof (Z.pow_pos_nonneg 2 (bits mod 8) ltac:(lia) ltac:(lia)). pose proof (Z.mod_pos_bound b (2 ^ (bits mod 8)) ltac:(lia)). pose proof (Z.mod_le b (2 ^ (bits mod 8)) ltac:(lia) ltac:(lia)). lia. }
  assert (Bb : bytes block) by (rewrite E; apply Forall_app; split; [exact (CT _ Bx)|]; apply Forall_app; split; [apply HH|]; apply Forall_app; split; auto; constructor; [apply Ht|constructor]).
  split; [split; [auto|split; [auto|]]|].
  - pose proof (pss_block_fits H gam M HM bits hid msg r salt pad block G) as Cf. destruct (lead_bytes bits ltac:(lia)) as (BB & _). change (blen block = block_bytes bits) in L. rewrite (lead_pow bits) by lia. destruct block as [|b rest].
    + exfalso. apply (f_equal blen) in E. rewrite !blen_app in E. change (blen []) with 0 in E. change (blen [t]) with 1 in E. pose proof (blen_nonneg (clear_top bits (xorl db (M h (length db))))). pose proof (blen_nonneg h). pose proof (blen_nonneg hid). lia.
    + rewrite be_val_cons. inversion Bb as [|? ? Hb Brest]; subst. pose proof (be_val_bounds rest Brest) as (V0 & V1). rewrite blen_cons in L. change (Z.of_nat (length rest)) with (blen rest) in *. cbn [clear_top] in Cf. injection Cf as Cf. unfold lead in BB. destruct (Z.eqb_spec (bits mod 8) 0) as [Z|Z].
      * rewrite Z. replace (bits / 8) with (1 + blen rest) by lia. rewrite Z.pow_add_r by (pose proof (blen_nonneg rest); lia). change (2 ^ 0) with 1. change (256 ^ 1) with 256. unfold byte in Hb. nia.
      * replace (bits / 8) with (blen rest) by lia. pose proof (Z.pow_pos_nonneg 2 (bits mod 8) ltac:(lia) ltac:(lia)). pose proof (Z.mod_pos_bound b (2 ^ (bits mod 8)) ltac:(lia)). nia.
  - rewrite E. rewrite !app_assoc, be_val_app. change (be_val [t]) with (0 * 256 + t). set (a := (clear_top bits (xorl db (M h (length db))) ++ h) ++ hid). assert (Ba : bytes a) by (rewrite E, !app_assoc in Bb; apply Forall_app in Bb; apply Bb). pose proof (be_val_bounds a Ba). change (256 ^ Z.of_nat (length [t])) with 256. lia.
Qed.
Lemma block_of_clear bits block : 0 < bits -> block_of bits block -> clear_top bits block = block.
Proof.
  intros P (B & L & V). destruct block as [|b rest]; [reflexivity|]. cbn [clear_top]. f_equal. destruct (Z.eqb_spec (bits mod 8) 0) as [|Z]; auto. pose proof (Z.mod_pos_bound bits 8 ltac:(lia)). inversion B as [|? ? Hb Brest]; subst. unfold byte in Hb.
  destruct (lead_bytes bits ltac:(lia)) as (BB & _). change (blen (b :: rest) = block_bytes bits) in L. rewrite blen_cons in L. unfold lead in BB. destruct (Z.eqb_spec (bits mod 8) 0); [contradiction|]. rewrite be_val_cons in V. change (Z.of_nat (length rest)) with (blen rest) in V. rewrite (lead_pow bits) in V by lia. replace (bits / 8) with (blen rest) in V by lia. pose proof (be_val_bounds rest Brest). pose proof (Z.pow_pos_nonneg 256 (blen rest) ltac:(lia) (blen_nonneg rest)). apply Z.mod_small. nia.
Qed.
