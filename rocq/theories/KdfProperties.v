(** C65 and C88: key derivation. *)
From Coq Require Import ZArith List Lia Bool Arith.
From Verif Require Import Base Blocks HashModel HashSpec HashProofs HashProperties KdfModel KdfSpec KdfProofs.
Import ListNotations.
Local Open Scope Z_scope.

(** Every iterated hash of HashModel is fit for deriving keys. *)
Theorem C65_iterated_hashes : forall a, ok_alg a -> ha_dsize a <> 0%nat -> kdf_hash (ih_obj a) (hrep a) (md_hash a) (2 ^ 63) /\ hrep a (ih_new a) [].
Proof.
  intros a Ha Hd. destruct (C14_iterated_hash_implements_its_digest a Ha) as [Hi Hn]. split; [|exact Hn]. constructor; [|apply B_pos; auto|exact Hd].
  eexists. split; [exact Hi|]. intros m Hm. fold (blen m) in Hm. split; [|exact Hm].
  assert (2 ^ 63 <= ha_M a * ha_M a); [|lia]. unfold ha_M, ha_N. rewrite <- Z.pow_add_r by lia. apply Z.pow_le_mono_r; [lia|]. destruct Ha as [[-> | ->] _]; lia.
Qed.
Example C65_iterated_hashes_example : ok_alg (toy true 8) /\ ha_dsize (toy true 8) <> 0%nat. Proof. split; [apply toy_ok|discriminate]. Qed.

(** PBKDF2: the key is that of RFC 8018 for the number of iterations returned; that is the number asked for, unless a
    time limit was given. *)
Theorem C65_pbkdf2 : forall T (o : hobj T) rep hash limit, kdf_hash o rep hash limit -> forall s secret salt iterations len timed clock k fuel,
  rep s [] -> Z.of_nat (ho_bsize o + 3 * ho_dsize o + length secret + length salt + 4) < limit -> Z.of_nat len <= 2 ^ 32 - 1 ->
  kdf_stops timed clock iterations k -> (k <= fuel)%nat ->
  exists n, pbkdf2 o fuel s secret salt iterations len timed clock = Some (KKey n (pbkdf2_spec (hmac_spec hash (ho_bsize o) secret) (ho_dsize o) salt n len)) /\
    (count iterations <= n <= k)%nat /\ (timed = false -> n = count iterations).
Proof. intros T o rep hash limit [(ok & Hi & Hok) HB HD]. intros. eapply pbkdf2_ok; eauto. Qed.
Theorem C65_hkdf : forall T (o : hobj T) rep hash limit, kdf_hash o rep hash limit -> forall s secret salt info len,
  rep s [] -> (len <= ho_dsize o * 255)%nat ->
  Z.of_nat (ho_bsize o + 3 * ho_dsize o + length secret + length (match salt with Some x => x | None => [] end) + length info + 1) < limit ->
  hkdf o s secret salt info len = Some (KKey 1 (hkdf_spec (hmac_spec hash (ho_bsize o)) (ho_dsize o) secret (match salt with Some x => x | None => repeat 0 (ho_dsize o) end) info len)).
Proof. intros T o rep hash limit [(ok & Hi & Hok) HB HD]. intros. eapply hkdf_ok; eauto. Qed.
(** Lengths above the limit are refused, whatever else is given. *)
Theorem C65_too_long : forall T (o : hobj T) fuel s secret salt osalt info iterations len timed clock,
  (2 ^ 32 - 1 < Z.of_nat len -> pbkdf2 o fuel s secret salt iterations len timed clock = Some KBadLength) /\
  ((ho_dsize o < len)%nat -> pbkdf1 o fuel s secret salt iterations len timed clock = Some KBadLength) /\
  ((ho_dsize o * 255 < len)%nat -> hkdf o s secret osalt info len = Some KBadLength).
Proof.
  intros. split; [|split]; intros H; [unfold pbkdf2|unfold pbkdf1|unfold hkdf].
  - apply Z.ltb_lt in H. rewrite H. reflexivity.
  - apply Nat.ltb_lt in H. rewrite H. reflexivity.
  - apply Nat.ltb_lt in H. rewrite H. reflexivity.
Qed.
(** A shorter key is a prefix of a longer one. *)
Lemma blocks_prefix : forall len1 len2 d block, d <> 0%nat -> (forall i, length (block i) = d) -> (len1 <= len2)%nat ->
  from_blocks len1 d block = firstn len1 (from_blocks len2 d block).
Proof.
  intros len1 len2 d block Hd Lb Hl. unfold from_blocks. rewrite firstn_firstn, Nat.min_l by lia.
  assert (C : (ceil_div len1 d <= ceil_div len2 d)%nat) by (unfold ceil_div; apply Nat.div_le_mono; lia).
  replace (ceil_div len2 d) with (ceil_div len1 d + (ceil_div len2 d - ceil_div len1 d))%nat by lia. rewrite seq_app, map_app, concat_app, firstn_app.
  assert (L : length (concat (map block (seq 1 (ceil_div len1 d)))) = (d * ceil_div len1 d)%nat).
  { clear C. generalize 1%nat. induction (ceil_div len1 d) as [|k IH]; intros i; cbn [seq map concat]; [cbn; lia|]. rewrite app_length, Lb, IH. lia. }
  assert (len1 <= d * ceil_div len1 d)%nat.
  { unfold ceil_div. pose proof (Nat.div_mod (len1 + d - 1) d Hd). pose proof (Nat.mod_upper_bound (len1 + d - 1) d Hd). lia. }
  replace (len1 - length (concat (map block (seq 1 (ceil_div len1 d)))))%nat with 0%nat by (rewrite L; lia). cbn [firstn]. rewrite app_nil_r. reflexivity.
Qed.
Theorem C65_hkdf_prefix : forall T (o : hobj T) rep hash limit, kdf_hash o rep hash limit -> forall s secret salt info len1 len2,
  rep s [] -> (len1 <= len2 <= ho_dsize o * 255)%nat ->
  Z.of_nat (ho_bsize o + 3 * ho_dsize o + length secret + length (match salt with Some x => x | None => [] end) + length info + 1) < limit ->
  exists k1 k2, hkdf o s secret salt info len1 = Some (KKey 1 k1) /\ hkdf o s secret salt info len2 = Some (KKey 1 k2) /\ length k1 = len1 /\ k1 = firstn len1 k2.
Proof.
  intros T o rep hash limit K s secret salt info len1 len2 R Hl L. pose proof (C65_hkdf T o rep hash limit K s secret salt info len1 R ltac:(lia) L) as E1.
  pose proof (C65_hkdf T o rep hash limit K s secret salt info len2 R ltac:(lia) L) as E2. eexists _, _. split; [exact E1|]. split; [exact E2|].
  destruct K as [(ok & Hi & Hok) HB HD]. unfold hkdf_spec. set (prf := hmac_spec hash (ho_bsize o) (hmac_spec _ _ _ _)).
  assert (Lt : forall i, (1 <= i)%nat -> length (hkdf_t prf info i) = ho_dsize o) by (intros [|i] Hi1; [lia|]; cbn [hkdf_t]; unfold prf, hmac_spec; apply (imp_length _ _ _ _ Hi)).
  assert (Eb : forall n, from_blocks n (ho_dsize o) (hkdf_t prf info) = from_blocks n (ho_dsize o) (fun i => hkdf_t prf info (Nat.max 1 i))).
  { intros n. unfold from_blocks. do 2 f_equal. apply map_ext_in. intros i Hi2. apply in_seq in Hi2. rewrite Nat.max_r by lia. reflexivity. }
  rewrite !Eb. pose proof (blocks_prefix len1 len2 (ho_dsize o) (fun i => hkdf_t prf info (Nat.max 1 i)) HD ltac:(intros; apply Lt; lia) ltac:(lia)) as P. split; [|exact P].
  rewrite <- Eb. unfold from_blocks. rewrite firstn_length.
  assert (Lc : forall k i, (1 <= i)%nat -> length (concat (map (hkdf_t prf info) (seq i k))) = (ho_dsize o * k)%nat).
  { induction k as [|k IH]; intros i Hi2; cbn [seq map concat]; [cbn; lia|]. rewrite app_length, Lt, IH by lia. lia. }
  rewrite Lc by lia. unfold ceil_div. pose proof (Nat.div_mod (len1 + ho_dsize o - 1) (ho_dsize o) HD). pose proof (Nat.mod_upper_bound (len1 + ho_dsize o - 1) (ho_dsize o) HD). lia.
Qed.
(** hkdf.h says that a null salt and an empty one give different keys. They give the same one, when a digest is not
    longer than a block. *)
Theorem C65_hkdf_null_salt_refuted : forall T (o : hobj T) rep hash limit, kdf_hash o rep hash limit -> (ho_dsize o <= ho_bsize o)%nat -> forall s secret info len,
  rep s [] -> (len <= ho_dsize o * 255)%nat -> Z.of_nat (ho_bsize o + 3 * ho_dsize o + length secret + length info + 1) < limit ->
  hkdf o s secret None info len = hkdf o s secret (Some []) info len.
Proof.
  intros T o rep hash limit K Hds s secret info len R Hl L.
  assert (Ek : hmac_key hash (ho_bsize o) (repeat 0 (ho_dsize o)) = hmac_key hash (ho_bsize o) []).
  { unfold hmac_key. rewrite repeat_length, (proj2 (Nat.leb_le _ _)) by exact Hds. cbn [length Nat.leb app]. rewrite Nat.sub_0_r, repeat_length, <- repeat_app. f_equal. lia. }
  rewrite !(C65_hkdf T o rep hash limit K) by (auto; cbn [length]; lia). do 2 f_equal. unfold hkdf_spec.
  assert (Em : hmac_spec hash (ho_bsize o) (repeat 0 (ho_dsize o)) secret = hmac_spec hash (ho_bsize o) [] secret) by (unfold hmac_spec; rewrite Ek; reflexivity).
  rewrite Em. reflexivity.
Qed.
Example C65_example : let a := toy true 8 in
  pbkdf2 (ih_obj a) 3 (ih_new a) [1; 2] [3] 3 20 false (fun _ => true) = Some (KKey 3 (pbkdf2_spec (hmac_spec (md_hash a) 64 [1; 2]) 8 [3] 3 20)) /\
  hkdf (ih_obj a) (ih_new a) [1; 2] (Some [3]) [4] 20 = Some (KKey 1 (hkdf_spec (hmac_spec (md_hash a) 64) 8 [1; 2] [3] [4] 20)) /\
  kdf_stops false (fun _ => true) 3 3 /\ kdf_stops true (fun j => Nat.ltb j 200) 3 256 /\ (ho_dsize (ih_obj a) <= ho_bsize (ih_obj a))%nat.
Proof. cbv zeta. split; [vm_compute; reflexivity|]. split; [vm_compute; reflexivity|]. split; [split; [cbn; lia|discriminate]|]. split; [split; [vm_compute; lia|]; intros _; split; reflexivity|]. vm_compute. lia. Qed.

(** C88: PBKDF1 and the derivation function of PKCS #12. *)
Theorem C88_pbkdf1 : forall T (o : hobj T) rep hash limit, kdf_hash o rep hash limit -> forall s secret salt iterations len timed clock k fuel,
  rep s [] -> Z.of_nat (ho_dsize o + length secret + length salt) < limit -> (len <= ho_dsize o)%nat -> kdf_stops timed clock iterations k -> (k <= fuel)%nat ->
  exists n, pbkdf1 o fuel s secret salt iterations len timed clock = Some (KKey n (pbkdf1_spec hash secret salt n len)) /\
    (count iterations <= n <= k)%nat /\ (timed = false -> n = count iterations).
Proof. intros T o rep hash limit [(ok & Hi & Hok) HB HD]. intros. eapply pbkdf1_ok; eauto. Qed.
Theorem C88_pkcs12 : forall T (o : hobj T) rep hash limit, kdf_hash o rep hash limit -> forall s purpose secret salt iterations len timed clock k fuel,
  rep s [] -> Z.of_nat (ho_dsize o + 3 * ho_bsize o + length secret + length salt) < limit -> kdf_stops timed clock iterations k -> (k <= fuel)%nat ->
  exists n, pkcs12 o fuel s purpose secret salt iterations len timed clock = Some (KKey n (pkcs12_spec hash (ho_bsize o) (ho_dsize o) purpose secret salt n len)) /\
    (count iterations <= n <= k)%nat /\ (timed = false -> n = count iterations).
Proof. intros T o rep hash limit [(ok & Hi & Hok) HB HD]. intros. eapply pkcs12_ok; eauto. Qed.
Example C88_example : let a := toy true 8 in
  pbkdf1 (ih_obj a) 3 (ih_new a) [1; 2] [3] 3 6 false (fun _ => true) = Some (KKey 3 (firstn 6 (md_hash a (md_hash a (md_hash a [1; 2; 3]))))) /\
  pkcs12 (ih_obj a) 3 (ih_new a) 1 [0; 2; 0; 0] [3; 4; 5] 3 20 false (fun _ => true) = Some (KKey 3 (pkcs12_spec (md_hash a) 64 8 1 [0; 2; 0; 0] [3; 4; 5] 3 20)) /\
  pkcs12 (ih_obj a) 1 (ih_new a) 1 [] [] 1 8 false (fun _ => true) = Some (KKey 1 (md_hash a (repeat 1 64))).
Proof. cbv zeta. split; [vm_compute; reflexivity|]. split; vm_compute; reflexivity. Qed.

Print Assumptions C65_iterated_hashes. Print Assumptions C65_pbkdf2. Print Assumptions C65_hkdf. Print Assumptions C65_too_long. Print Assumptions C65_hkdf_prefix.
Print Assumptions C65_hkdf_null_salt_refuted. Print Assumptions C88_pbkdf1. Print Assumptions C88_pkcs12.
