(** C57 (DES) and C97: DES, DES-EDE2, DES-EDE3 and DES-XEX3. *)
From Coq Require Import ZArith List Bool Arith Lia.
From Verif Require Import Base CipherModel CipherSpec CipherProofs DesModel DesSpec DesProofs DesRunProofs DesBlockProofs.
Import ListNotations.
Open Scope nat_scope.

(** The eight-byte parts of a key. *)
Definition part (i : nat) (key : list Z) : list bool := bits_of (firstn 8 (skipn (8 * i) key)).

Lemma keys_part : forall d i key, keys d (skipn (8 * i) key) = if d then rev (KS (part i key)) else KS (part i key).
Proof. reflexivity. Qed.

Lemma des_masks : forall d key, masks 8 (des d key).
Proof. intros d key. exact (process_masks true 4 2 _). Qed.

(** ** C97 DES and triple DES are the algorithms of FIPS 46-3 *)
Theorem C97_des : forall key b, bytes key -> length key = 8 -> bytes b -> length b = 8 ->
  (exists c, des false key b None = Some c /\ bytes c /\ length c = 8 /\ bits_of c = DES_encrypt (bits_of key) (bits_of b))
  /\ (exists c, des true key b None = Some c /\ bytes c /\ length c = 8 /\ bits_of c = DES_decrypt (bits_of key) (bits_of b)).
Proof.
  intros key b HK LK HB LB.
  assert (E : firstn 8 key = key) by (rewrite <- LK; apply firstn_all).
  destruct (des_computes false key HK ltac:(lia) b HB LB) as (c & C1 & C2 & C3 & C4).
  destruct (des_computes true key HK ltac:(lia) b HB LB) as (d & D1 & D2 & D3 & D4).
  unfold keys in C4, D4. rewrite E in C4, D4. split; [exists c|exists d]; repeat split; auto.
Qed.
Example C97_des_example :
  des false [0x13; 0x34; 0x57; 0x79; 0x9B; 0xBC; 0xDF; 0xF1]%Z [0x01; 0x23; 0x45; 0x67; 0x89; 0xAB; 0xCD; 0xEF]%Z None
  = Some [0x85; 0xE8; 0x13; 0x54; 0x0F; 0x0A; 0xB4; 0x05]%Z.
Proof. vm_compute. reflexivity. Qed.

(** Two-key triple DES: the third key is the first. *)
Theorem C97_ede2 : forall key b, bytes key -> length key = 16 -> bytes b -> length b = 8 ->
  (exists c, des_ede2 false key b None = Some c /\ bytes c /\ length c = 8
     /\ bits_of c = TDEA_encrypt (part 0 key) (part 1 key) (part 0 key) (bits_of b))
  /\ (exists c, des_ede2 true key b None = Some c /\ bytes c /\ length c = 8
     /\ bits_of c = TDEA_decrypt (part 0 key) (part 1 key) (part 0 key) (bits_of b)).
Proof.
  intros key b HK LK HB LB. assert (L8 : length (skipn 8 key) = 8) by (rewrite skipn_length; lia).
  pose proof (bytes_skipn 8 key HK) as HK8.
  destruct (three_computes false key true (skipn 8 key) false key HK HK8 HK ltac:(lia) ltac:(lia) ltac:(lia) b HB LB) as (c & C1 & C2 & C3 & C4).
  destruct (three_computes true key false (skipn 8 key) true key HK HK8 HK ltac:(lia) ltac:(lia) ltac:(lia) b HB LB) as (d & D1 & D2 & D3 & D4).
  split; [exists c|exists d]; repeat split; auto.
Qed.
Theorem C97_ede3 : forall key b, bytes key -> length key = 24 -> bytes b -> length b = 8 ->
  (exists c, des_ede3 false key b None = Some c /\ bytes c /\ length c = 8
     /\ bits_of c = TDEA_encrypt (part 0 key) (part 1 key) (part 2 key) (bits_of b))
  /\ (exists c, des_ede3 true key b None = Some c /\ bytes c /\ length c = 8
     /\ bits_of c = TDEA_decrypt (part 0 key) (part 1 key) (part 2 key) (bits_of b)).
Proof.
  intros key b HK LK HB LB. assert (L8 : length (skipn 8 key) = 16) by (rewrite skipn_length; lia). assert (L16 : length (skipn 16 key) = 8) by (rewrite skipn_length; lia).
  pose proof (bytes_skipn 8 key HK) as HK8. pose proof (bytes_skipn 16 key HK) as HK16.
  destruct (three_computes false key true (skipn 8 key) false (skipn 16 key) HK HK8 HK16 ltac:(lia) ltac:(lia) ltac:(lia) b HB LB) as (c & C1 & C2 & C3 & C4).
  destruct (three_computes true (skipn 16 key) false (skipn 8 key) true key HK16 HK8 HK ltac:(lia) ltac:(lia) ltac:(lia) b HB LB) as (d & D1 & D2 & D3 & D4).
  split; [exists c|exists d]; repeat split; auto.
Qed.
Example C97_ede3_example : exists key b, bytes key /\ length key = 24 /\ bytes b /\ length b = 8
  /\ des_ede3 false key b None = des false (firstn 8 key) b None /\ des_ede3 false key b None = Some [0x85; 0xE8; 0x13; 0x54; 0x0F; 0x0A; 0xB4; 0x05]%Z.
Proof.
  exists ([0x13; 0x34; 0x57; 0x79; 0x9B; 0xBC; 0xDF; 0xF1; 0x13; 0x34; 0x57; 0x79; 0x9B; 0xBC; 0xDF; 0xF1; 0x13; 0x34; 0x57; 0x79; 0x9B; 0xBC; 0xDF; 0xF1]%Z), [0x01; 0x23; 0x45; 0x67; 0x89; 0xAB; 0xCD; 0xEF]%Z.
  split; [repeat constructor; lia|]. split; [reflexivity|]. split; [repeat constructor; lia|]. split; [reflexivity|].
  split; vm_compute; reflexivity.
Qed.

(** ** C97 parity bits: what the parity functions say and do, and that DES reads no parity bit *)
Lemma parity_byte : forall b, (0 <= b < 256)%Z ->
  (check_parity b = true <-> odd_parity b)
  /\ (check_parity b = false -> odd_parity (Z.lxor b 1) /\ (0 <= Z.lxor b 1 < 256)%Z)
  /\ forall t, t < 7 -> nth t (bits_of [Z.lxor b 1]) false = nth t (bits_of [b]) false.
Proof.
  assert (X : forallb (fun n => let b := Z.of_nat n in
     Bool.eqb (check_parity b) (Nat.odd (length (filter (fun x : bool => x) (bits_of [b]))))
     && (check_parity b || (Nat.odd (length (filter (fun x : bool => x) (bits_of [Z.lxor b 1]))) && (0 <=? Z.lxor b 1)%Z && (Z.lxor b 1 <? 256)%Z))
     && forallb (fun t => Bool.eqb (nth t (bits_of [Z.lxor b 1]) false) (nth t (bits_of [b]) false)) (seq 0 7)) (seq 0 256) = true) by (vm_compute; reflexivity).
  intros b Hb. rewrite forallb_forall in X. specialize (X (Z.to_nat b) ltac:(apply in_seq; lia)). cbv zeta in X. rewrite Z2Nat.id in X by lia.
  apply andb_prop in X as [X X3]. apply andb_prop in X as [X1 X2]. apply Bool.eqb_prop in X1. unfold odd_parity. split; [rewrite X1; reflexivity|]. split.
  - intros E. rewrite E in X2. cbn [orb] in X2. apply andb_prop in X2 as [X2 X5]. apply andb_prop in X2 as [X2 X4]. split; [exact X2|lia].
  - intros t Ht. rewrite forallb_forall in X3. apply Bool.eqb_prop, X3, in_seq. lia.
Qed.
Theorem C97_check_parity : forall key, bytes key -> 8 <= length key ->
  (check_key_parity key = true <-> Forall odd_parity (firstn 8 key)).
Proof.
  intros key HB _. unfold check_key_parity. pose proof (bytes_firstn 8 key HB) as B. induction (firstn 8 key) as [|b s IH]; cbn [forallb].
  - split; [constructor|reflexivity].
  - inversion B as [|? ? B1 B2]; subst. rewrite andb_true_iff, (proj1 (parity_byte b B1)), (IH B2).
    split; [intros [H1 H2]; constructor; assumption|intros H; inversion H; split; assumption].
Qed.
Theorem C97_correct_parity : forall key, bytes key -> 8 <= length key ->
  let key' := correct_key_parity key in
  bytes key' /\ length key' = length key /\ Forall odd_parity (firstn 8 key') /\ skipn 8 key' = skipn 8 key
  /\ (forall p, p < 64 -> p mod 8 <> 7 -> nth p (bits_of key') false = nth p (bits_of key) false)
  /\ (Forall odd_parity (firstn 8 key) -> key' = key).
Proof.
  intros key HB HL key'. unfold key', correct_key_parity. set (g := fun b => if check_parity b then b else Z.lxor b 1).
  set (a := firstn 8 key). assert (LA : length a = 8) by (unfold a; rewrite firstn_length; lia). assert (BA : bytes a) by (apply bytes_firstn, HB).
  assert (E : key = a ++ skipn 8 key) by (symmetry; apply firstn_skipn). assert (LG : length (map g a) = 8) by (rewrite map_length; exact LA).
  assert (G1 : bytes (map g a) /\ Forall odd_parity (map g a)).
  { clear - BA. induction BA as [|b s B1 B2 IH]; cbn [map]; [split; constructor|]. destruct IH as [I1 I2]. destruct (parity_byte b B1) as (P1 & P2 & _).
    unfold g at 1 3. destruct (check_parity b) eqn:C; [split; constructor; auto; apply P1; reflexivity|]. destruct (P2 eq_refl) as [P3 P4]. split; constructor; auto. }
  destruct G1 as [G1 G2]. split; [apply bytes_app; split; [exact G1|apply bytes_skipn, HB]|].
  split; [rewrite app_length, LG, skipn_length; lia|]. assert (F8 : firstn 8 (map g a ++ skipn 8 key) = map g a /\ skipn 8 (map g a ++ skipn 8 key) = skipn 8 key).
  { clear - LG. revert LG. generalize (map g a) (skipn 8 key). intros x y Lx. rewrite <- Lx. split; [apply firstn_app_exact|apply skipn_app_exact]. }
  destruct F8 as [F8 S8]. split; [rewrite F8; exact G2|]. split; [exact S8|]. split.
  - intros p Hp HM. rewrite E at 2. rewrite !bits_of_app, !app_nth1 by (rewrite bits_of_length; lia).
    rewrite !bits_of_nth by lia. assert (P8 : p / 8 < 8) by (apply Nat.div_lt_upper_bound; lia).
    assert (PM : p mod 8 < 8) by (apply Nat.mod_upper_bound; lia).
    rewrite (nth_indep _ 0%Z (g 0%Z)) by lia. rewrite map_nth. set (b := nth (p / 8) a 0%Z).
    assert (Bb : (0 <= b < 256)%Z) by (unfold bytes in BA; rewrite Forall_forall in BA; apply BA, nth_In; lia).
    unfold g. destruct (check_parity b); [reflexivity|]. destruct (parity_byte b Bb) as (_ & _ & P). specialize (P (p mod 8) ltac:(lia)).
    rewrite !bits_of_nth in P by (cbn [length]; lia). rewrite Nat.div_small, (Nat.mod_small (p mod 8) 8) in P by lia. exact P.
  - intros HO. rewrite E at 2. f_equal. clear - HO BA. fold a in HO. induction BA as [|b s B1 B2 IH]; cbn [map]; [reflexivity|].
    inversion HO; subst. rewrite IH by assumption. f_equal. unfold g. destruct (parity_byte b B1) as (P1 & _). rewrite (proj2 P1) by assumption. reflexivity.
Qed.
Theorem C97_parity_is_ignored : forall k1 k2, bytes k1 -> bytes k2 -> length k1 = 8 -> length k2 = 8 ->
  (forall p, p < 64 -> p mod 8 <> 7 -> nth p (bits_of k1) false = nth p (bits_of k2) false) ->
  forall decrypt b mask, bytes b -> length b = 8 -> des decrypt k1 b mask = des decrypt k2 b mask.
Proof.
  intros k1 k2 B1 B2 L1 L2 H d b mask Hb Lb.
  destruct (des_computes d k1 B1 ltac:(lia) b Hb Lb) as (c & C1 & C2 & C3 & C4). destruct (des_computes d k2 B2 ltac:(lia) b Hb Lb) as (c' & D1 & D2 & D3 & D4).
  rewrite (keys_ignore_parity k1 k2 ltac:(lia) ltac:(lia) H d), <- D4 in C4. assert (EC : c = c') by (apply (bits_inj c c' C2 D2); [rewrite C3, D3; reflexivity|exact C4]). subst c'.
  destruct mask as [m|]; [|rewrite C1, D1; reflexivity].
  rewrite (des_masks d k1 b m c Hb Lb C1), (des_masks d k2 b m c Hb Lb D1). reflexivity.
Qed.
Example C97_parity_example :
  correct_key_parity [0x12; 0x34; 0x56; 0x78; 0x9A; 0xBC; 0xDE; 0xF0]%Z = [0x13; 0x34; 0x57; 0x79; 0x9B; 0xBC; 0xDF; 0xF1]%Z
  /\ check_key_parity [0x12; 0x34; 0x56; 0x78; 0x9A; 0xBC; 0xDE; 0xF0]%Z = false
  /\ check_key_parity [0x13; 0x34; 0x57; 0x79; 0x9B; 0xBC; 0xDF; 0xF1]%Z = true.
Proof. repeat split. Qed.

(** ** C57 for DES and its relatives *)
Lemma keys_rev : forall key, keys true key = rev (keys false key).
Proof. reflexivity. Qed.
Theorem C57_des : forall key, bytes key -> length key = 8 -> block_cipher 8 (des false key) (des true key).
Proof.
  intros key HK LK. split; [|split; [|split]]; try apply (process_masks true 4 2).
  - apply (computes_undoes _ _ _ _ (des_computes false key HK ltac:(lia)) (des_computes true key HK ltac:(lia))). intros b Lb. apply cipher_back, Lb.
  - apply (computes_undoes _ _ _ _ (des_computes true key HK ltac:(lia)) (des_computes false key HK ltac:(lia))). intros b Lb. apply cipher_forth, Lb.
Qed.
Theorem C57_des_ede2 : forall key, bytes key -> length key = 16 -> block_cipher 8 (des_ede2 false key) (des_ede2 true key).
Proof.
  intros key HK LK. assert (L8 : length (skipn 8 key) = 8) by (rewrite skipn_length; lia). pose proof (bytes_skipn 8 key HK) as HK8.
  pose proof (three_computes false key true (skipn 8 key) false key HK HK8 HK ltac:(lia) ltac:(lia) ltac:(lia)) as CE.
  pose proof (three_computes true key false (skipn 8 key) true key HK HK8 HK ltac:(lia) ltac:(lia) ltac:(lia)) as CD.
  split; [|split; [|split]]; try apply (process_masks true 4 2).
  - apply (computes_undoes _ _ _ _ CE CD). intros b Lb. rewrite !keys_rev.
    rewrite cipher_back by apply cipher_length. rewrite cipher_forth by apply cipher_length. apply cipher_back, Lb.
  - apply (computes_undoes _ _ _ _ CD CE). intros b Lb. rewrite !keys_rev.
    rewrite cipher_forth by apply cipher_length. rewrite cipher_back by apply cipher_length. apply cipher_forth, Lb.
Qed.
Theorem C57_des_ede3 : forall key, bytes key -> length key = 24 -> block_cipher 8 (des_ede3 false key) (des_ede3 true key).
Proof.
  intros key HK LK. assert (L8 : length (skipn 8 key) = 16) by (rewrite skipn_length; lia). assert (L16 : length (skipn 16 key) = 8) by (rewrite skipn_length; lia).
  pose proof (bytes_skipn 8 key HK) as HK8. pose proof (bytes_skipn 16 key HK) as HK16.
  pose proof (three_computes false key true (skipn 8 key) false (skipn 16 key) HK HK8 HK16 ltac:(lia) ltac:(lia) ltac:(lia)) as CE.
  pose proof (three_computes true (skipn 16 key) false (skipn 8 key) true key HK16 HK8 HK ltac:(lia) ltac:(lia) ltac:(lia)) as CD.
  split; [|split; [|split]]; try apply (process_masks true 4 2).
  - apply (computes_undoes _ _ _ _ CE CD). intros b Lb. rewrite !keys_rev.
    rewrite cipher_back by apply cipher_length. rewrite cipher_forth by apply cipher_length. apply cipher_back, Lb.
  - apply (computes_undoes _ _ _ _ CD CE). intros b Lb. rewrite !keys_rev.
    rewrite cipher_forth by apply cipher_length. rewrite cipher_back by apply cipher_length. apply cipher_forth, Lb.
Qed.

(** DES-XEX3: x1 and x3 are the outer parts of the key. *)
Lemma xorl_swap : forall a b c, xorl (xorl a b) c = xorl (xorl a c) b.
Proof.
  induction a as [|x a IH]; intros [|y b] [|z c]; cbn [xorl]; auto; [rewrite ?xorl_nil_r; reflexivity..|]. f_equal; [|apply IH].
  rewrite !Z.lxor_assoc, (Z.lxor_comm y z). reflexivity.
Qed.
Lemma xex3_undoes : forall d key, bytes key -> length key = 24 -> undoes 8 (des_xex3 d key) (des_xex3 (negb d) key).
Proof.
  intros d key HK LK b Hb Lb. pose proof (bytes_skipn 8 key HK) as HK8. assert (L8 : length (skipn 8 key) = 16) by (rewrite skipn_length; lia).
  unfold des_xex3, des_xex3_at.
  set (x1 := firstn 8 (skipn (if d then 16 else 0) key)). set (x3 := firstn 8 (skipn (if d then 0 else 16) key)).
  assert (Y1 : firstn 8 (skipn (if negb d then 16 else 0) key) = x3) by (destruct d; reflexivity).
  assert (Y3 : firstn 8 (skipn (if negb d then 0 else 16) key) = x1) by (destruct d; reflexivity). rewrite Y1, Y3.
  assert (B1 : bytes x1 /\ length x1 = 8) by (split; [apply bytes_firstn, bytes_skipn, HK|unfold x1; rewrite firstn_length, skipn_length, LK; destruct d; reflexivity]).
  assert (B3 : bytes x3 /\ length x3 = 8) by (split; [apply bytes_firstn, bytes_skipn, HK|unfold x3; rewrite firstn_length, skipn_length, LK; destruct d; reflexivity]).
  destruct B1 as [B1 L1], B3 as [B3 L3].
  assert (UN : undoes 8 (des d (skipn 8 key)) (des (negb d) (skipn 8 key))).
  { apply (computes_undoes _ _ _ _ (des_computes d _ HK8 ltac:(lia)) (des_computes (negb d) _ HK8 ltac:(lia))). intros x Lx.
    destruct d; cbn [negb]; rewrite keys_rev; [apply cipher_forth, Lx|apply cipher_back, Lx]. }
  destruct (UN (xorl b x1)) as (c & C1 & C2 & C3 & C4); [apply xorl_bytes; assumption|rewrite xorl_length; lia|].
  exists (xorl c x3). rewrite C1. split; [reflexivity|]. split; [apply xorl_bytes; assumption|]. split; [rewrite xorl_length; lia|].
  rewrite xorl_cancel by lia. rewrite C4. rewrite xorl_cancel by lia. reflexivity.
Qed.
Lemma xex3_masks : forall d key, bytes key -> length key = 24 -> masks 8 (des_xex3 d key).
Proof.
  intros d key HK LK b m c Hb Lb. unfold des_xex3, des_xex3_at.
  set (x1 := firstn 8 (skipn (if d then 16 else 0) key)). set (x3 := firstn 8 (skipn (if d then 0 else 16) key)).
  assert (BX : bytes (xorl b x1)) by (apply xorl_bytes; [exact Hb|apply bytes_firstn, bytes_skipn, HK]).
  assert (LX : length (xorl b x1) = 8) by (rewrite xorl_length, Lb; unfold x1; rewrite firstn_length, skipn_length, LK; destruct d; reflexivity).
  destruct (des d (skipn 8 key) (xorl b x1) None) as [e|] eqn:E; [|discriminate]. intros X. injection X as <-.
  rewrite (des_masks d _ _ m e BX LX E). rewrite xorl_swap. reflexivity.
Qed.
Theorem C57_des_xex3 : forall key, bytes key -> length key = 24 -> block_cipher 8 (des_xex3 false key) (des_xex3 true key).
Proof.
  intros key HK LK. split; [apply (xex3_undoes false); assumption|]. split; [apply (xex3_undoes true); assumption|]. split; apply xex3_masks; assumption.
Qed.
Example C57_des_xex3_example : forall key, key = map Z.of_nat (seq 1 24) ->
  bytes key /\ length key = 24 /\ exists c, des_xex3 false key [1; 2; 3; 4; 5; 6; 7; 8]%Z None = Some c /\ des_xex3 true key c None = Some [1; 2; 3; 4; 5; 6; 7; 8]%Z.
Proof.
  intros key E. assert (HK : bytes key) by (subst; repeat constructor; lia). assert (LK : length key = 24) by (subst; reflexivity).
  split; [exact HK|]. split; [exact LK|]. destruct (C57_des_xex3 key HK LK) as [U _].
  destruct (U [1; 2; 3; 4; 5; 6; 7; 8]%Z) as (c & C1 & _ & _ & C2); [repeat constructor; lia|reflexivity|]. exists c. auto.
Qed.

(** When the mask is the output buffer itself, as when a counter or feedback mode works in place, DES-XEX3 reads
    the mask after overwriting it: whatever [m] the buffer holds, the answer is right only if [m] happens to
    be the input exclusive-ored with the first part of the key. *)
Theorem C57_xex3_in_place_refuted : forall key b m, bytes key -> length key = 24 -> bytes b -> length b = 8 -> bytes m -> length m = 8 ->
  (des_xex3_at false key b Over = des_xex3 false key b (Some m) <-> m = xorl b (firstn 8 key)).
Proof.
  intros key b m HK LK Hb Lb Hm Lm. unfold des_xex3, des_xex3_at. change (skipn 0 key) with key. cbv iota.
  set (x1 := firstn 8 key). set (x3 := firstn 8 (skipn 16 key)).
  assert (L1 : length x1 = 8) by (unfold x1; rewrite firstn_length; lia). assert (L3 : length x3 = 8) by (unfold x3; rewrite firstn_length, skipn_length; lia).
  assert (BX : bytes (xorl b x1)) by (apply xorl_bytes; [exact Hb|apply bytes_firstn, HK]). assert (LX : length (xorl b x1) = 8) by (rewrite xorl_length; lia).
  pose proof (bytes_skipn 8 key HK) as HK8. assert (L8 : length (skipn 8 key) = 16) by (rewrite skipn_length; lia).
  destruct (des_computes false _ HK8 ltac:(lia) _ BX LX) as (c & C1 & C2 & C3 & _).
  rewrite (des_masks false _ _ (xorl b x1) c BX LX C1), (des_masks false _ _ m c BX LX C1).
  split; [|intros ->; reflexivity]. intros E. injection E as E.
  apply (f_equal (fun v => xorl v x3)) in E. rewrite !xorl_cancel in E by (rewrite xorl_length; lia).
  rewrite !(xorl_comm c) in E. apply (f_equal (fun v => xorl v c)) in E. rewrite !xorl_cancel in E by lia. symmetry. exact E.
Qed.
Example C57_xex3_in_place_example : exists key b m, bytes key /\ length key = 24 /\ bytes b /\ length b = 8 /\ bytes m /\ length m = 8
  /\ des_xex3_at false key b Over <> des_xex3 false key b (Some m).
Proof.
  exists (repeat 0%Z 24), (repeat 0%Z 8), (repeat 1%Z 8).
  assert (K : bytes (repeat 0%Z 24)) by (repeat constructor; lia). assert (B : bytes (repeat 0%Z 8)) by (repeat constructor; lia). assert (M : bytes (repeat 1%Z 8)) by (repeat constructor; lia).
  split; [exact K|]. split; [reflexivity|]. split; [exact B|]. split; [reflexivity|]. split; [exact M|]. split; [reflexivity|].
  intros E. apply (C57_xex3_in_place_refuted _ _ _ K eq_refl B eq_refl M eq_refl) in E. discriminate.
Qed.

Print Assumptions C97_des.
Print Assumptions C97_ede2.
Print Assumptions C97_ede3.
Print Assumptions C97_check_parity.
Print Assumptions C97_correct_parity.
Print Assumptions C97_parity_is_ignored.
Print Assumptions C57_des.
Print Assumptions C57_des_ede2.
Print Assumptions C57_des_ede3.
Print Assumptions C57_des_xex3.
Print Assumptions C57_xex3_in_place_refuted.
