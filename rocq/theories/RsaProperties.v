(** Properties of the RSA trapdoor function (C45, C77, C80, C81). *)
From Coq Require Import ZArith Znumtheory List Bool Arith Lia.
From Verif Require Import Base AsnModel AsnSpec AsnProofs AsnKeyProofs AsnProperties WordsModel WordsSpec WordsProofs IntegerModel IntegerSpec IntegerProofs IntegerProperties
  ModModel ModSpec NumberTheory NbModel NbSpec NbProofs NbProperties RsaModel RsaSpec RsaProofs.
Import ListNotations.
Local Open Scope Z_scope.

(* ------------------------------------------------------------------------- C45 *)
(** Validate at level 1 accepts exactly the keys that satisfy the equations of PKCS #1 (and keep d mod p-1 and d mod q-1 above one). *)
Theorem C45_validate : forall w fuel k m, word_bits w -> holds w k m -> (Z.to_nat (p_ m) < fuel)%nat -> exists b, validate_1 w fuel k = ROk b /\ (b = true <-> rsa_equations m).
Proof. intros w fuel k m Hw. apply validate_1_int; auto. Qed.
(** The private operation inverts the public one on all of [0, n), whatever blinding values are drawn, and the other way round. It needs a block that gives a blinding value. *)
Theorem C45_inverts : forall w fuel k m blocks x vx, word_bits w -> holds w k m -> rsa_key m -> is_int w x vx -> 0 <= vx < n_ m -> blinding_blocks (n_ m) blocks -> n_ m < 2 ^ (Z.of_nat fuel - 1) ->
  (calculate_inverse w fuel k blocks x = RStuck /\ Forall (fun b => ~ blinds (n_ m) b) blocks) \/
  exists y z, calculate_inverse w fuel k blocks x = ROk y /\ is_int w y (vx ^ d_ m mod n_ m) /\ apply_function w fuel (k_n k) (k_e k) y = ROk z /\ is_int w z vx.
Proof.
  intros w fuel k m blocks x vx Hw Hk Key Hx R F L. pose proof Key as (_ & _ & Eq). pose proof (n_big m Eq) as (N1 & _). pose proof (ed_odd m Eq) as (OE & _ & _ & _ & ON). pose proof Hk as (Hn & He & _). pose proof Eq as (_ & _ & _ & E1 & D1 & _).
  destruct (inverse_int w Hw fuel k m blocks x vx Hk Key Hx R F L) as [H|(y & E & Hy)]; [left; auto|right].
  destruct (apply_int w Hw fuel (k_n k) (k_e k) y (n_ m) (e_ m) _ Hn He Hy) as (z & Ez & Hz); auto; try lia. exists y, z. split; auto. split; auto. split; auto. replace vx with ((vx ^ d_ m mod n_ m) ^ e_ m mod n_ m); auto.
  etransitivity; [apply (eqm_pow (n_ m)), eqm_mod|]. rewrite <- Z.pow_mul_r by lia. rewrite (Z.mul_comm (d_ m)). etransitivity; [apply rsa_exponent; auto|]. apply Z.mod_small. auto.
Qed.
Theorem C45_decrypts : forall w fuel k m blocks x vx, word_bits w -> holds w k m -> rsa_key m -> is_int w x vx -> 0 <= vx < n_ m -> blinding_blocks (n_ m) blocks -> n_ m < 2 ^ (Z.of_nat fuel - 1) ->
  exists c, apply_function w fuel (k_n k) (k_e k) x = ROk c /\ is_int w c (vx ^ e_ m mod n_ m) /\
    ((calculate_inverse w fuel k blocks c = RStuck /\ Forall (fun b => ~ blinds (n_ m) b) blocks) \/ exists y, calculate_inverse w fuel k blocks c = ROk y /\ is_int w y vx).
Proof.
  intros w fuel k m blocks x vx Hw Hk Key Hx R F L. pose proof Key as (_ & _ & Eq). pose proof (n_big m Eq) as (N1 & _). pose proof (ed_odd m Eq) as (OE & _ & _ & _ & ON). pose proof Hk as (Hn & He & _). pose proof Eq as (_ & _ & _ & E1 & D1 & _).
  destruct (apply_int w Hw fuel (k_n k) (k_e k) x (n_ m) (e_ m) _ Hn He Hx) as (c & Ec & Hc); auto; try lia. exists c. split; auto. split; auto.
  destruct (inverse_int w Hw fuel k m blocks c _ Hk Key Hc ltac:(apply Z.mod_pos_bound; lia) F L) as [H|(y & E & Hy)]; [left; auto|right]. exists y. split; auto. replace vx with ((vx ^ e_ m mod n_ m) ^ d_ m mod n_ m); auto.
  etransitivity; [apply (eqm_pow (n_ m)), eqm_mod|]. rewrite <- Z.pow_mul_r by lia. etransitivity; [apply rsa_exponent; auto|]. apply Z.mod_small. auto.
Qed.
(** A fault does not get out: whatever the CRT computation returns, and whatever numbers the key holds, a result is an e-th root of the argument. *)
Theorem C45_fault_detected : forall w root fuel k m blocks x vx y, word_bits w -> holds w k m -> (forall a va r, is_int w a va -> root a = ROk r -> exists v, is_int w r v) -> is_int w x vx -> blinding_blocks (n_ m) blocks -> e_ m < 2 ^ (Z.of_nat fuel - 1) ->
  calculate_inverse_by w root fuel k blocks x = ROk y -> exists v, is_int w y v /\ 0 <= v < n_ m /\ v ^ e_ m mod n_ m = vx.
Proof. intros w root fuel k m blocks x vx y Hw. apply inverse_checked; auto. Qed.
(** The ISO 9796 variant inverts on its message representatives, which end in the nibble 12, and returns at most n/2. *)
Theorem C45_iso : forall w fuel k m blocks x vx, word_bits w -> holds w k m -> rsa_key m -> is_int w x vx -> 0 <= vx < n_ m -> vx mod 16 = 12 -> blinding_blocks (n_ m) blocks -> n_ m < 2 ^ (Z.of_nat fuel - 1) ->
  (calculate_inverse_iso w fuel k blocks x = RStuck /\ Forall (fun b => ~ blinds (n_ m) b) blocks) \/
  exists y v r, calculate_inverse_iso w fuel k blocks x = ROk y /\ is_int w y v /\ 0 <= v <= n_ m / 2 /\ apply_function_iso w fuel (k_n k) (k_e k) y = ROk r /\ is_int w r vx.
Proof. intros w fuel k m blocks x vx Hw. apply iso_int; auto. Qed.
(** A key: 253 = 11 * 23. *)
Definition key253 : rsa_private := mkRsa (small 253) (small 3) (small 37) (small 11) (small 23) (small 7) (small 15) (small 1).
Definition num253 : rsa_numbers := mkNum 253 3 37 11 23 7 15 1.
Lemma holds253 : holds 64 key253 num253.
Proof. unfold holds. cbn. do 7 (split; [lit 1%nat|]). lit 1%nat. Qed.
Lemma equations253 : rsa_equations num253.
Proof. unfold rsa_equations. cbn. repeat split; lia. Qed.
Example C45_example : holds 64 key253 num253 /\ rsa_key num253 /\ validate_1 64 12 key253 = ROk true /\
  blinding_blocks 253 [[0; 252]; [7; 21]; [0; 86]] /\ ~ blinds 253 [0; 252] /\ ~ blinds 253 [7; 21] /\ blinds 253 [0; 86] /\
  (exists y, calculate_inverse 64 9 key253 [[0; 252]; [7; 21]; [0; 86]] (small 108) = ROk y /\ is_int 64 y (108 ^ 37 mod 253) /\ 108 ^ 37 mod 253 <> 0) /\
  calculate_inverse_by 64 (fun _ => ROk (small 5)) 9 key253 [[0; 252]; [7; 21]; [0; 86]] (small 108) = RThrow /\
  (exists y, calculate_inverse_iso 64 9 key253 [[0; 86]] (small 108) = ROk y).
Proof.
  split; [exact holds253|]. split; [split; [small_prime|split; [small_prime|exact equations253]]|]. split; [vm_compute; reflexivity|].
  split. { unfold blinding_blocks. change (S (bit_length (253 - 2) / 8)) with 2%nat. repeat constructor; lia. }
  split. { intros [H _]. vm_compute in H. apply H. reflexivity. } split. { intros [_ H]. vm_compute in H. discriminate. } split. { split; vm_compute; [discriminate|reflexivity]. }
  split. { destruct (calculate_inverse 64 9 key253 [[0; 252]; [7; 21]; [0; 86]] (small 108)) as [y| | | |] eqn:E; vm_compute in E; try discriminate. exists y. split; auto. injection E as <-. split; [lit 1%nat|vm_compute; discriminate]. }
  split; [vm_compute; reflexivity|]. eexists. vm_compute. reflexivity.
Qed.

(* ------------------------------------------------------------------------- C77 *)
(** Initialize(n, e, d): when it returns, the factors are right, and so are the other numbers; for a product of two primes, the factors are these. (A key whose d*e-1 is zero
    makes the search run forever, and a key can be refused when a base shares a factor with n before one splits it: see below.) *)
Theorem C77_initialize_partial : forall w fuel n e d vn ve vd k, word_bits w -> is_int w n vn -> is_int w e ve -> is_int w d vd -> 1 < vn -> 0 < ve -> 0 < vd -> 1 < vd * ve -> Z.max vn (vd * ve) < Z.of_nat fuel ->
  initialize w fuel n e d = ROk k ->
  exists m, holds w k m /\ n_ m = vn /\ e_ m = ve /\ d_ m = vd /\ p_ m * q_ m = vn /\ 1 < p_ m < vn /\ 1 < q_ m < vn /\ dp_ m = vd mod (p_ m - 1) /\ dq_ m = vd mod (q_ m - 1) /\ inverse_of (q_ m) (p_ m) (u_ m) /\
    forall p q, prime p -> prime q -> vn = p * q -> p_ m = p /\ q_ m = q \/ p_ m = q /\ q_ m = p.
Proof.
  intros w fuel n e d vn ve vd k Hw Hn He Hd N1 E0 D0 DE L E. destruct (initialize_int w Hw fuel n e d vn ve vd k Hn He Hd N1 E0 D0 DE L E) as (m & H1 & H2 & H3 & H4 & H5 & H6 & H7 & H8 & H9 & H10). exists m. do 10 (split; [assumption|]).
  intros p q Pp Pq Q. pose proof (prime_gt1 p Pp). pose proof (prime_gt1 q Pq). rewrite <- H5 in Q. assert (D : (p | p_ m * q_ m)) by (exists q; lia). apply prime_mult in D; auto. destruct D as [[c Hc]|[c Hc]].
  - assert (Q' : c * q_ m = q) by nia. assert (C : (c | q)) by (exists (q_ m); lia). destruct (prime_divisors q Pq c C) as [V|[V|[V|V]]]; subst c; nia.
  - assert (Q' : c * p_ m = q) by nia. assert (C : (c | q)) by (exists (p_ m); lia). destruct (prime_divisors q Pq c C) as [V|[V|[V|V]]]; subst c; nia.
Qed.
Theorem C77_not_terminating_refuted : forall fuel, initialize 64 (S fuel) (small 253) (small 1) (small 1) = RStuck.
Proof.
  intros fuel. unfold initialize. change (negb (is_odd 64 (small 253)) || negb (is_odd 64 (small 1)) || negb (is_odd 64 (small 1))) with false. cbv iota.
  assert (Z0 : exists z, decr 64 (times 64 (small 1) (small 1)) = z /\ is_int 64 z 0). { eexists. split; [reflexivity|]. first [lit 1%nat|lit 2%nat]. }
  destruct Z0 as (z & -> & Hz). pose proof (word_bits_big 64 (or_intror eq_refl)) as Hb. assert (G : forall f z r, is_int 64 z 0 -> halve_even 64 f z r = RStuck).
  { induction f as [|f IH]; intros z' r Hz'; [reflexivity|]. cbn [halve_even]. rewrite (IntegerBitProofs.get_bit_int 64 z' 0 0 Hz'). cbn. apply IH.
    pose proof (NbProofs.shr_pos 64 (or_intror eq_refl) z' 0 1 Hz' ltac:(lia)) as Q. exact Q. }
  rewrite (G _ z 0%nat Hz). reflexivity.
Qed.
(** The key n = 33, e = 3, d = 7 is refused: 2 does not split 33, and the next base is a factor of it. *)
Theorem C77_valid_key_refuted : exists p q e d n, prime p /\ prime q /\ n = p * q /\ 1 < e < n /\ 1 < d < n /\ (e * d) mod Z.lcm (p - 1) (q - 1) = 1 /\
  forall fuel, (400 <= fuel)%nat -> initialize 64 fuel (small n) (small e) (small d) = RThrow.
Proof.
  exists 3, 11, 3, 7, 33. split; [small_prime|]. split; [small_prime|]. do 4 (split; [vm_compute; try split; reflexivity|]). intros fuel F. assert (E : exists f, fuel = (400 + f)%nat) by (exists (fuel - 400)%nat; lia). destruct E as (f & ->). vm_compute. reflexivity.
Qed.
Example C77_example : initialize 64 400 (small 253) (small 3) (small 37) = ROk (mkRsa (small 253) (small 3) (small 37) (small 11) (small 23) (small 7) (small 15) (small 1)) \/
  initialize 64 400 (small 253) (small 3) (small 37) = ROk (mkRsa (small 253) (small 3) (small 37) (small 23) (small 11) (small 15) (small 7) (small 21)).
Proof. vm_compute. auto. Qed.

(* ------------------------------------------------------------------------- C80 *)
Lemma nonneg_not_full w a : word_bits w -> 0 <= a -> ~ full_register w a.
Proof. intros Hw A (n & _ & E). assert (0 < (2 ^ w) ^ Z.of_nat n) by (apply Z.pow_pos_nonneg; [apply Z.pow_pos_nonneg; [lia|destruct Hw; lia]|lia]). lia. Qed.
Lemma len_wrap_ge tag c : len c <= len (der_wrap tag c).
Proof. unfold der_wrap, len. cbn [length]. rewrite app_length. lia. Qed.
Lemma int_der_reads w b x a : word_bits w -> is_int w x a -> 0 <= a -> len (int_der w x) < 2 ^ 64 -> exists y, is_int w y a /\ reads_back (int_ber w b) y (int_der w x).
Proof. intros Hw X A L. destruct (C70_round_trip_partial w b x a Hw X (nonneg_not_full w a Hw A)) as (y & Y & R & _). { unfold int_der in L. pose proof (len_wrap_ge INTEGER (encode w true (min_encoded_size w true x) x)). lia. } eauto. Qed.
Lemma reader_int w b : reader (int_ber w b).
Proof.
  apply (reader_within INTEGER (int_contents w b)). intros s v s' H E. unfold int_contents in E. destruct (s_frames s) as [|[l|] fr] eqn:Fr; try discriminate. destruct (Z.ltb_spec (s_count s) l); [discriminate|].
  unfold s_getn in E. inversion E; subst. exists (Z.min l (s_count s)). split; auto. destruct H as [H _]. rewrite Fr in H. apply Forall_inv in H. cbn in H. lia.
Qed.
(** The keys are read back from their encodings, in any context of open decoders, and no proper prefix is accepted. *)
Theorem C80_public : forall w b n e vn ve, word_bits w -> is_int w n vn -> is_int w e ve -> 0 <= vn -> 0 <= ve -> len (int_der w n ++ int_der w e) < 2 ^ 64 ->
  (exists n' e', is_int w n' vn /\ is_int w e' ve /\ reads_back (public_dec w b) (n', e') (public_enc w (n, e))) /\ refuses_prefixes (public_dec w b) (public_enc w (n, e)).
Proof.
  intros w b n e vn ve Hw Hn He N E L. pose proof L as L'. rewrite len_app in L'. pose proof (len_nonneg (int_der w n)). pose proof (len_nonneg (int_der w e)).
  assert (X : forall s, public_dec w b s = within SEQUENCE (fun s => bind (int_ber w b s) (fun n s => bind (int_ber w b s) (fun e s => Some ((n, e), s)))) s).
  { intros s. unfold public_dec, within. destruct (ber_open SEQUENCE s) as [s1|]; auto. cbn [bind1]. destruct (int_ber w b s1) as [(x & s2)|]; auto. cbn [bind]. destruct (int_ber w b s2) as [(y & s3)|]; auto. }
  split.
  - destruct (int_der_reads w b n vn Hw Hn N ltac:(lia)) as (n' & Hn' & Rn). destruct (int_der_reads w b e ve Hw He E ltac:(lia)) as (e' & He' & Re). exists n', e'. split; auto. split; auto. intros s rest H1 H2. rewrite X. revert s rest H1 H2.
    apply (C32_nested _ SEQUENCE _ (n', e') _ L). apply (reads_in_bind _ _ n'); auto. rewrite <- (app_nil_r (int_der w e)). apply (reads_in_bind _ _ e'); auto. apply reads_in_ret.
  - intros s missing H1 H2 H3. rewrite X. revert s missing H1 H2 H3. apply (C34_nested _ SEQUENCE _ _ L). apply reader_bind; [apply reader_int|]. intros n'. apply reader_bind; [apply reader_int|]. intros e'. apply reader_ret.
Qed.
Definition nonneg_numbers (m : rsa_numbers) : Prop := 0 <= n_ m /\ 0 <= e_ m /\ 0 <= d_ m /\ 0 <= p_ m /\ 0 <= q_ m /\ 0 <= dp_ m /\ 0 <= dq_ m /\ 0 <= u_ m.
Theorem C80_private : forall w sz b k m, word_bits w -> holds w k m -> nonneg_numbers m -> len (private_enc w k) < 2 ^ sz -> 3 < sz <= 64 ->
  (exists k', holds w k' m /\ reads_back (private_dec w sz b) k' (private_enc w k)) /\ refuses_prefixes (private_dec w sz b) (private_enc w k).
Proof.
  intros w sz b k m Hw (Hn & He & Hd & Hp & Hq & Hdp & Hdq & Hu) (P1 & P2 & P3 & P4 & P5 & P6 & P7 & P8) L Sz. unfold private_enc in *.
  set (c := der_unsigned 4 INTEGER 0 ++ _) in *. assert (Lc : len c < 2 ^ 64). { pose proof (len_wrap_ge SEQUENCE c). assert (2 ^ sz <= 2 ^ 64) by (apply Z.pow_le_mono_r; lia). lia. }
  assert (X : forall s, private_dec w sz b s = within SEQUENCE (fun s => bind (ber_unsigned sz 4 INTEGER 0 0 s) (fun _ s =>
    bind (int_ber w b s) (fun n s => bind (int_ber w b s) (fun e s => bind (int_ber w b s) (fun d s => bind (int_ber w b s) (fun p s => bind (int_ber w b s) (fun q s =>
    bind (int_ber w b s) (fun dp s => bind (int_ber w b s) (fun dq s => bind (int_ber w b s) (fun u s => Some (mkRsa n e d p q dp dq u, s))))))))))) s).
  { intros s. unfold private_dec, within. destruct (ber_open SEQUENCE s) as [s1|]; auto. cbn [bind1]. destruct (ber_unsigned sz 4 INTEGER 0 0 s1) as [(v & s2)|]; auto. cbn [bind].
    do 8 (match goal with |- context [bind (int_ber w b ?s)] => destruct (int_ber w b s) as [(? & ?)|]; [cbn [bind]|reflexivity] end). reflexivity. }
  split.
  - pose proof Lc as L'. unfold c in L'. rewrite !len_app in L'. pose proof (len_nonneg (der_unsigned 4 INTEGER 0)). pose proof (len_nonneg (int_der w (k_n k))). pose proof (len_nonneg (int_der w (k_e k))). pose proof (len_nonneg (int_der w (k_d k))). pose proof (len_nonneg (int_der w (k_p k))). pose proof (len_nonneg (int_der w (k_q k))). pose proof (len_nonneg (int_der w (k_dp k))). pose proof (len_nonneg (int_der w (k_dq k))). pose proof (len_nonneg (int_der w (k_u k))).
    destruct (int_der_reads w b _ _ Hw Hn P1 ltac:(lia)) as (n' & Hn' & R1). destruct (int_der_reads w b _ _ Hw He P2 ltac:(lia)) as (e' & He' & R2). destruct (int_der_reads w b _ _ Hw Hd P3 ltac:(lia)) as (d' & Hd' & R3). destruct (int_der_reads w b _ _ Hw Hp P4 ltac:(lia)) as (p' & Hp' & R4).
    destruct (int_der_reads w b _ _ Hw Hq P5 ltac:(lia)) as (q' & Hq' & R5). destruct (int_der_reads w b _ _ Hw Hdp P6 ltac:(lia)) as (dp' & Hdp' & R6). destruct (int_der_reads w b _ _ Hw Hdq P7 ltac:(lia)) as (dq' & Hdq' & R7). destruct (int_der_reads w b _ _ Hw Hu P8 ltac:(lia)) as (u' & Hu' & R8).
    exists (mkRsa n' e' d' p' q' dp' dq' u'). split. { unfold holds. cbn. auto 10. } intros s rest H8 H9. rewrite X. revert s rest H8 H9.
    apply (C32_nested _ SEQUENCE _ (mkRsa n' e' d' p' q' dp' dq' u') _ Lc). unfold c. apply (reads_in_bind _ _ 0). { destruct (version_reads sz ltac:(lia)); auto. lia. }
    apply (reads_in_bind _ _ n'); auto. apply (reads_in_bind _ _ e'); auto. apply (reads_in_bind _ _ d'); auto. apply (reads_in_bind _ _ p'); auto. apply (reads_in_bind _ _ q'); auto. apply (reads_in_bind _ _ dp'); auto. apply (reads_in_bind _ _ dq'); auto.
    rewrite <- (app_nil_r (int_der w (k_u k))). apply (reads_in_bind _ _ u'); auto. apply reads_in_ret.
  - intros s missing H1 H2 H3. rewrite X. revert s missing H1 H2 H3. apply (C34_nested _ SEQUENCE _ _ Lc). apply reader_bind; [apply reader_unsigned|]. intros _. do 8 (apply reader_bind; [apply reader_int|]; intros ?). apply reader_ret.
Qed.
Example C80_example : nonneg_numbers num253 /\ len (private_enc 64 key253) < 2 ^ 32 /\
  private_enc 64 key253 = [48; 28; 2; 1; 0; 2; 2; 0; 253; 2; 1; 3; 2; 1; 37; 2; 1; 11; 2; 1; 23; 2; 1; 7; 2; 1; 15; 2; 1; 1] /\ public_enc 64 (small 253, small 3) = [48; 7; 2; 2; 0; 253; 2; 1; 3].
Proof. split; [unfold nonneg_numbers; cbn; lia|]. do 2 (split; [vm_compute; reflexivity|]). vm_compute. reflexivity. Qed.

(* ------------------------------------------------------------------------- C81 *)
(** Key generation, once the primes are chosen: primes that the selector accepts (gcd(e, p-1) = gcd(e, q-1) = 1) give a key that satisfies the equations; equal primes are rejected. *)
Theorem C81_generate : forall w fuel e p q ve vp vq, word_bits w -> is_int w e ve -> is_int w p vp -> is_int w q vq -> 2 < vp -> 2 < vq -> prime vp -> prime vq -> 0 < ve -> Z.gcd ve (vp - 1) = 1 -> Z.gcd ve (vq - 1) = 1 ->
  (Z.to_nat vp < fuel)%nat -> (forall l, int_lcm w fuel (minus w p int_one) (minus w q int_one) = ROk l -> (length (reg e) <= 2 * length (reg l))%nat) -> (length (reg q) <= 2 * length (reg p))%nat ->
  exists o, generate_from w fuel e p q = ROk o /\ (o = None <-> vp = vq) /\
    forall k, o = Some k -> exists m, holds w k m /\ n_ m = vp * vq /\ e_ m = ve /\ p_ m = vp /\ q_ m = vq /\ (ve * d_ m) mod Z.lcm (vp - 1) (vq - 1) = 1 /\
      (1 < ve < vp * vq -> 1 < dp_ m -> 1 < dq_ m -> rsa_key m).
Proof.
  intros w fuel e p q ve vp vq Hw He Hp Hq P2 Q2 Pp Pq E0 G1 G2 F Ll Lq. destruct (generate_int w Hw fuel e p q ve vp vq He Hp Hq P2 Q2 Pp Pq E0 G1 G2 F Ll Lq) as (o & E & N & H). exists o. split; auto. split; auto. intros k K.
  destruct (H k K) as (m & H1 & H2 & H3 & H4 & H5 & (D1 & D2) & H6 & H7 & U1 & U2). exists m. do 6 (split; [assumption|]). intros B C1 C2. pose proof (NbProofs.prime_odd vp Pp P2). pose proof (NbProofs.prime_odd vq Pq Q2).
  assert (D : 1 < d_ m). { destruct (Z.eq_dec (d_ m) 1) as [Q|]; [|lia]. rewrite Q in H6. rewrite H6, Z.mod_small in C1; lia. }
  unfold rsa_key, rsa_equations. rewrite H2, H3, H4, H5 in *. intuition lia.
Qed.
Example C81_example : generate_from 64 20 (small 3) (small 11) (small 23) = ROk (Some (mkRsa (mkInt false [253; 0; 0; 0]) (small 3) (small 37) (small 11) (small 23) (small 7) (small 15) (small 1))) /\ generate_from 64 20 (small 3) (small 11) (small 11) = ROk None.
Proof. split; vm_compute; reflexivity. Qed.

Print Assumptions C45_validate.
Print Assumptions C45_inverts.
Print Assumptions C45_decrypts.
Print Assumptions C45_fault_detected.
Print Assumptions C45_iso.
Print Assumptions C77_initialize_partial.
Print Assumptions C77_not_terminating_refuted.
Print Assumptions C80_public.
Print Assumptions C80_private.
Print Assumptions C81_generate.
