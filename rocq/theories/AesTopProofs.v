(** Lemmas for Rijndael: the block functions are those of the standard, and each undoes the other. *)
From Coq Require Import ZArith List Bool Arith Lia.
From Verif Require Import Base CipherModel CipherSpec CipherProofs AesModel AesSpec AesProofs AesRunProofs AesKeyProofs.
Import ListNotations.
Local Open Scope Z_scope.

Lemma removelast_snoc : forall (A : Type) (l : list A) x, removelast (l ++ [x]) = l.
Proof. intros. apply removelast_last. Qed.
Lemma last_snoc : forall (A : Type) (l : list A) x d, last (l ++ [x]) d = x.
Proof. intros. apply last_last. Qed.

Definition SS (s : list Z) := shift_rows (sub_bytes s).
Definition IS (s : list Z) := inv_sub_bytes (inv_shift_rows s).
Definition G (k s : list Z) := inv_mix_columns (add_round_key k (IS s)).

Lemma cipher_ends : forall k0 mids kl s,
  cipher (k0 :: mids ++ [kl]) s = xorl (SS (fold_left (fun s k => R_enc k s) mids (xorl s k0))) kl.
Proof.
  intros. unfold cipher. cbn [hd tl]. rewrite removelast_snoc.
  replace (last (k0 :: mids ++ [kl]) []) with kl by (change (k0 :: mids ++ [kl]) with ((k0 :: mids) ++ [kl]); symmetry; apply last_snoc).
  reflexivity.
Qed.
Lemma inv_cipher_ends : forall k0 mids kl s,
  inv_cipher (k0 :: mids ++ [kl]) s = xorl (IS (fold_left (fun s k => G k s) (rev mids) (xorl s kl))) k0.
Proof.
  intros. unfold inv_cipher. cbn [hd tl]. rewrite removelast_snoc.
  replace (last (k0 :: mids ++ [kl]) []) with kl by (change (k0 :: mids ++ [kl]) with ((k0 :: mids) ++ [kl]); symmetry; apply last_snoc).
  reflexivity.
Qed.

Lemma SS_blk : forall s, blk s -> blk (SS s). Proof. apply shift_sub_blk. Qed.
Lemma IS_blk : forall s, blk s -> blk (IS s). Proof. apply inv_shift_sub_blk. Qed.
Lemma G_blk : forall k s, blk k -> blk s -> blk (G k s).
Proof. intros. apply inv_mix_blk, xorl_blk; auto. apply IS_blk. auto. Qed.
Lemma fold_blk : forall (F : list Z -> list Z -> list Z), (forall k s, blk k -> blk s -> blk (F k s)) ->
  forall ks s, Forall blk ks -> blk s -> blk (fold_left (fun s k => F k s) ks s).
Proof. intros F HF. induction ks; intros s Hk Hs; cbn [fold_left]; auto. inversion Hk; subst. apply IHks; auto. Qed.

(** One decryption round with the mixed key is the standard's. *)
Lemma R_dec_G : forall k s, blk k -> blk s -> R_dec (inv_mix_columns k) s = G k s.
Proof.
  intros k s Hk Hs. unfold R_dec, G, add_round_key. fold (IS s). symmetry. apply inv_mix_xorl; auto. apply IS_blk. auto.
Qed.
Lemma fold_R_dec : forall l s, Forall blk l -> blk s ->
  fold_left (fun s k => R_dec k s) (map inv_mix_columns l) s = fold_left (fun s k => G k s) l s.
Proof.
  induction l; intros s Hl Hs; cbn [map fold_left]; auto. inversion Hl; subst.
  rewrite R_dec_G by auto. apply IHl; auto. apply G_blk; auto.
Qed.

Lemma G_undoes : forall l s, Forall blk l -> blk s ->
  fold_left (fun s k => G k s) (rev l) (SS (fold_left (fun s k => R_enc k s) l s)) = SS s.
Proof.
  induction l as [|k l IH]; intros s Hl Hs; cbn [rev fold_left]; auto. inversion Hl; subst.
  assert (HR : blk (R_enc k s)) by (apply R_enc_blk; auto).
  rewrite fold_left_app, IH by auto. cbn [fold_left].
  unfold G, IS, SS. rewrite inv_shift_sub_of by auto. unfold add_round_key, R_enc, add_round_key.
  rewrite xorl_xorl; auto. - apply inv_mix_mix. apply SS_blk. auto. - apply mix_blk, SS_blk. auto.
Qed.
Lemma R_undoes : forall l t, Forall blk l -> blk t ->
  fold_left (fun s k => R_enc k s) l (IS (fold_left (fun s k => G k s) (rev l) t)) = IS t.
Proof.
  induction l as [|k l IH]; intros t Hl Ht; cbn [rev fold_left]; auto. inversion Hl; subst.
  rewrite fold_left_app. cbn [fold_left]. set (u := fold_left _ (rev l) t).
  assert (Hu : blk u). { unfold u. apply (fold_blk G G_blk); auto. apply Forall_rev. auto. }
  replace (R_enc k (IS (G k u))) with (IS u). { apply IH; auto. }
  unfold R_enc. fold (SS (IS (G k u))). unfold SS, IS at 2. rewrite shift_sub_of_inv by (apply G_blk; auto).
  unfold G. rewrite mix_inv_mix; [|apply xorl_blk; auto; apply IS_blk; auto].
  unfold add_round_key. rewrite xorl_xorl; auto. apply IS_blk. auto.
Qed.

Lemma inv_cipher_cipher : forall k0 mids kl s, blk k0 -> Forall blk mids -> blk kl -> blk s ->
  inv_cipher (k0 :: mids ++ [kl]) (cipher (k0 :: mids ++ [kl]) s) = s.
Proof.
  intros k0 mids kl s H0 Hm Hl Hs. rewrite cipher_ends, inv_cipher_ends.
  assert (Hx : blk (xorl s k0)) by (apply xorl_blk; auto).
  rewrite xorl_xorl; auto.
  - rewrite G_undoes by auto. unfold IS, SS. rewrite inv_shift_sub_of by auto. apply xorl_xorl; auto.
  - apply SS_blk. apply (fold_blk R_enc R_enc_blk); auto.
Qed.
Lemma cipher_inv_cipher : forall k0 mids kl s, blk k0 -> Forall blk mids -> blk kl -> blk s ->
  cipher (k0 :: mids ++ [kl]) (inv_cipher (k0 :: mids ++ [kl]) s) = s.
Proof.
  intros k0 mids kl s H0 Hm Hl Hs. rewrite inv_cipher_ends, cipher_ends.
  assert (Hx : blk (xorl s kl)) by (apply xorl_blk; auto).
  rewrite xorl_xorl; auto.
  - rewrite R_undoes by auto. unfold IS, SS. rewrite shift_sub_of_inv by auto. apply xorl_xorl; auto.
  - apply IS_blk. apply (fold_blk G G_blk); auto. apply Forall_rev. auto.
Qed.

(** The keys of the standard for a valid key. *)
Lemma keys_shape : forall key, aes_key key ->
  exists r k0 k1 mids kl, round_keys key = k0 :: (k1 :: mids) ++ [kl] /\ length mids = (2 * (r + 1))%nat /\
    aes_rounds key = (2 * (r + 1) + 2)%nat /\ (blk k0 /\ blk k1) /\ Forall blk mids /\ blk kl.
Proof.
  intros key HK. destruct (round_keys_spec key HK) as (_ & F & L).
  assert (exists r, aes_rounds key = (2 * (r + 1) + 2)%nat) as [r Er].
  { destruct HK as [_ [H|[H|H]]]; unfold aes_rounds; rewrite H; [exists 3%nat|exists 4%nat|exists 5%nat]; reflexivity. }
  rewrite Er in L. destruct (ends (round_keys key) r) as (k0 & k1 & mids & kl & E & Lm); [lia|].
  exists r, k0, k1, mids, kl. rewrite E in F. inversion F as [|? ? H0 F1]; subst. cbn [app] in F1.
  inversion F1 as [|? ? H1 F2]; subst. apply Forall_app in F2. destruct F2 as [F2 F3]. inversion F3; subst. auto 7.
Qed.

Lemma enc_key_spec : forall key k0 k1 mids kl, aes_key key -> round_keys key = k0 :: (k1 :: mids) ++ [kl] -> blk k0 -> blk kl ->
  aes_enc_key key = Some (WL k0 ++ flat_map WB (k1 :: mids) ++ WL kl).
Proof.
  intros key k0 k1 mids kl HK E H0 Hl. destruct (round_keys_spec key HK) as (S & _ & L).
  unfold aes_enc_key. rewrite S, E. rewrite E in L. cbn [length] in L. rewrite app_length in L. cbn [length] in L.
  replace (aes_rounds key) with (length (k1 :: mids) + 1)%nat by (cbn [length]; lia).
  f_equal. apply (reverse_ends_spec k0 (k1 :: mids) kl); auto.
Qed.

Lemma dec_key_spec : forall key k0 k1 mids kl, aes_key key -> round_keys key = k0 :: (k1 :: mids) ++ [kl] ->
  blk k0 -> Forall blk (k1 :: mids) -> blk kl ->
  aes_dec_key key = Some (WL kl ++ flat_map WB (map inv_mix_columns (rev (k1 :: mids))) ++ WL k0).
Proof.
  intros key k0 k1 mids kl HK E H0 Hm Hl. destruct (round_keys_spec key HK) as (S & F & L).
  assert (D : aes_dec_key key = dec_keys (aes_rounds key) (concat (map WB (round_keys key)))).
  { unfold aes_dec_key. rewrite S. rewrite flat_map_concat_map. reflexivity. }
  assert (D2 : dec_keys (aes_rounds key) (concat (map WB (round_keys key))) = Some (dec_order (map WB (round_keys key)))).
  { assert (F4 : Forall (fun w => length w = 4%nat) (map WB (round_keys key))).
    { apply Forall_forall. intros w Hw. apply in_map_iff in Hw. destruct Hw as (k & <- & _). apply WB_length. }
    assert (L4 : length (map WB (round_keys key)) = (aes_rounds key + 1)%nat) by (rewrite map_length; auto).
    destruct HK as [_ [H|[H|H]]]; unfold aes_rounds in L4 |- *; rewrite H in L4 |- *.
    - apply dec_keys_10; auto.
    - apply dec_keys_12; auto.
    - apply dec_keys_14; auto. }
  rewrite D, D2, E. f_equal. unfold dec_order. rewrite map_cons, map_app. cbn [tl hd map].
  change (map WB (k1 :: mids) ++ [WB kl]) with ((WB k1 :: map WB mids) ++ [WB kl]).
  rewrite removelast_snoc.
  replace (last (WB k0 :: (WB k1 :: map WB mids) ++ [WB kl]) []) with (WB kl)
    by (change (WB k0 :: (WB k1 :: map WB mids) ++ [WB kl]) with ((WB k0 :: WB k1 :: map WB mids) ++ [WB kl]);
        symmetry; apply last_snoc).
  rewrite !bswap_WB by auto. f_equal. f_equal.
  change (WB k1 :: map WB mids) with (map WB (k1 :: mids)). rewrite <- map_rev.
  rewrite !flat_map_concat_map, !map_map. f_equal. apply map_ext_in. intros k Hk. apply imc_WB.
  apply in_rev in Hk. rewrite Forall_forall in Hm. auto.
Qed.

Lemma process_WL : forall f b x mask, blk x -> f (WL b) = Some (WL x) ->
  process false 4 4 f b mask = Some (match mask with None => x | Some m => xorl x m end).
Proof.
  intros f b x mask [B L] E. unfold process. fold (WL b). rewrite E. unfold put_block. f_equal.
  assert (P : flat_map (word_to false 4) (WL x) = x).
  { assert (P4 : (0 < 4)%nat) by lia. apply (put_get false 4 P4 4 x); auto. }
  rewrite P. reflexivity.
Qed.

Lemma aes_enc_spec : forall key b mask, aes_key key -> blk b ->
  aes_enc key b mask = Some (match mask with None => fips197_cipher key b | Some m => xorl (fips197_cipher key b) m end) /\
  blk (fips197_cipher key b).
Proof.
  intros key b mask HK Hb. destruct (keys_shape key HK) as (r & k0 & k1 & mids & kl & E & Lm & Er & (H0 & H1) & Hm & Hl).
  assert (HB : blk (fips197_cipher key b)).
  { unfold fips197_cipher. rewrite E, cipher_ends. apply xorl_blk; auto. apply SS_blk.
    apply (fold_blk R_enc R_enc_blk); auto. apply xorl_blk; auto. }
  split; auto. unfold aes_enc. rewrite (enc_key_spec key k0 k1 mids kl) by auto.
  apply process_WL; auto.
  rewrite (aes_words_spec _ _ _ R_enc SS first_e_spec round_e_spec last_enc_spec R_enc_blk SS_blk k0 k1 mids kl r); auto.
  unfold fips197_cipher. rewrite E, cipher_ends. reflexivity.
Qed.

Lemma aes_dec_spec : forall key b mask, aes_key key -> blk b ->
  aes_dec key b mask = Some (match mask with None => fips197_inv_cipher key b | Some m => xorl (fips197_inv_cipher key b) m end) /\
  blk (fips197_inv_cipher key b).
Proof.
  intros key b mask HK Hb. destruct (keys_shape key HK) as (r & k0 & k1 & mids & kl & E & Lm & Er & (H0 & H1) & Hm & Hl).
  assert (Hms : Forall blk (k1 :: mids)) by (apply Forall_cons; auto).
  assert (HB : blk (fips197_inv_cipher key b)).
  { unfold fips197_inv_cipher. rewrite E, inv_cipher_ends. apply xorl_blk; auto. apply IS_blk.
    apply (fold_blk G G_blk); [apply Forall_rev; auto|]. apply xorl_blk; auto. }
  split; auto. unfold aes_dec. rewrite (dec_key_spec key k0 k1 mids kl) by auto.
  apply process_WL; auto.
  assert (Hrev : Forall blk (rev (k1 :: mids))) by (apply Forall_rev; auto).
  assert (Hinv : Forall blk (map inv_mix_columns (rev (k1 :: mids)))).
  { apply Forall_forall. intros x Hx. apply in_map_iff in Hx. destruct Hx as (y & <- & Hy). apply inv_mix_blk.
    rewrite Forall_forall in Hrev. auto. }
  assert (Lrev : length (map inv_mix_columns (rev (k1 :: mids))) = S (2 * (r + 1))).
  { rewrite map_length, rev_length. cbn [length]. lia. }
  destruct (map inv_mix_columns (rev (k1 :: mids))) as [|d1 ds] eqn:Ed; [discriminate Lrev|].
  inversion Hinv; subst.
  rewrite (aes_words_spec _ _ _ R_dec IS first_d_spec round_d_spec last_dec_spec R_dec_blk IS_blk kl d1 ds k0 r); auto.
  unfold fips197_inv_cipher. rewrite E, inv_cipher_ends. rewrite <- Ed, fold_R_dec; auto. apply xorl_blk; auto.
Qed.

Lemma aes_cipher : forall key, aes_key key -> block_cipher 16 (aes_enc key) (aes_dec key).
Proof.
  intros key HK. destruct (keys_shape key HK) as (r & k0 & k1 & mids & kl & E & Lm & Er & (H0 & H1) & Hm & Hl).
  assert (Hms : Forall blk (k1 :: mids)) by (apply Forall_cons; auto).
  split; [|split; [|split]].
  - intros b B L. destruct (aes_enc_spec key b None HK (conj B L)) as [Ee [Be Le]]. eexists. split; [exact Ee|]. split; [auto|].
    split; [auto|]. destruct (aes_dec_spec key _ None HK (conj Be Le)) as [-> _]. f_equal.
    unfold fips197_inv_cipher, fips197_cipher. rewrite E. apply inv_cipher_cipher; auto. split; auto.
  - intros b B L. destruct (aes_dec_spec key b None HK (conj B L)) as [Ee [Be Le]]. eexists. split; [exact Ee|]. split; [auto|].
    split; [auto|]. destruct (aes_enc_spec key _ None HK (conj Be Le)) as [-> _]. f_equal.
    unfold fips197_inv_cipher, fips197_cipher. rewrite E. apply cipher_inv_cipher; auto. split; auto.
  - intros b m c B L Ec. destruct (aes_enc_spec key b (Some m) HK (conj B L)) as [-> _].
    destruct (aes_enc_spec key b None HK (conj B L)) as [En _]. rewrite En in Ec. injection Ec as <-. reflexivity.
  - intros b m c B L Ec. destruct (aes_dec_spec key b (Some m) HK (conj B L)) as [-> _].
    destruct (aes_dec_spec key b None HK (conj B L)) as [En _]. rewrite En in Ec. injection Ec as <-. reflexivity.
Qed.
