(** The properties of public key message padding (C46-C49, C84, C87) and of the RSA schemes built on it (C85, C86). *)
From Coq Require Import ZArith Znumtheory List Bool Arith Lia.
From Verif Require Import Base WordsModel WordsSpec WordsProofs IntegerModel IntegerSpec IntegerProofs IntegerProperties NbSpec RsaModel RsaSpec RsaProofs RngModel RngSpec RngProofs
  PkPadModel PkPadSpec PkPadProofs Proth PkTfProofs.
Import ListNotations.
Local Open Scope Z_scope.

(** A toy hash of one byte, for the examples. *)
Definition toy (l : list Z) : list Z := [fold_left (fun a b => (a * 31 + b + 7) mod 256) l 1].
Lemma toy_hash : hash_of toy 1.
Proof. intros x. split; [reflexivity|]. constructor; [|constructor]. unfold byte. destruct x as [|x l] using rev_ind; cbn [fold_left]; [lia|]. rewrite fold_left_app. cbn [fold_left]. apply Z.mod_pos_bound. lia. Qed.
Lemma toy_masks : masks_with (mgf1 toy) (fun i n => counter_mask toy i [] 0 n).
Proof. apply (mgf1_masks toy 1); [apply toy_hash|lia]. Qed.

(* ------------------------------------------------------------------ C46 *)
(** Padding a message that is not too long gives a block of the right form and length, and unpadding that block gives the message; only a generator that gives too few usable
    words can stop it. With 18 bytes or fewer the empty message alone can be padded, with fewer than eight random bytes. *)
Theorem C46_round_trip : forall words m bits buf, 0 <= bits -> 2 <= bits / 8 -> blen m <= pkcs_max bits -> Z.of_nat (length buf) = block_bytes bits -> words32 words -> bytes m ->
  (pkcs_pad words m bits buf = RStuck /\ Z.of_nat (usable words) < bits / 8 - Z.of_nat (length m) - 2) \/
  exists block rest ps, pkcs_pad words m bits buf = ROk (block, rest) /\ block = pkcs_block bits ps m /\ non_zero_bytes ps /\ ((8 <= length ps)%nat \/ m = []) /\ block_of bits block /\
    pkcs_unpad block bits = ROk (Some m).
Proof.
  intros words m bits buf P N Lm Lb F Bm. destruct (pkcs_pad_spec words m bits buf P Lm N Lb F) as [(E & C)|(ps & rest & E & NZ & L8 & Lbk)]; [left; auto|right]. exists (pkcs_block bits ps m), rest, ps. split; auto. split; auto. split; auto. split; auto.
  pose proof (pkcs_block_fits bits ps m P NZ Bm Lbk) as Fit. split; auto. destruct Fit as (Bb & _ & _). apply (pkcs_unpad_exact (pkcs_block bits ps m) bits m); auto. { pose proof (Z.mul_div_le bits 8 ltac:(lia)). lia. } left. exists ps. auto.
Qed.
Example C46_example : let words := [0; 255; 511; 3; 4; 5; 6; 7; 8; 9; 10; 11] in blen [72; 105] <= pkcs_max 100 /\ words32 words /\
  pkcs_pad words [72; 105] 100 (repeat 170 13) = ROk ([0; 2; 1; 4; 5; 6; 7; 8; 9; 10; 0; 72; 105], [10; 11]) /\ pkcs_unpad [0; 2; 1; 4; 5; 6; 7; 8; 9; 10; 0; 72; 105] 100 = ROk (Some [72; 105]) /\
  pkcs_pad [255; 511] [72; 105] 100 (repeat 170 13) = RStuck.
Proof. cbv zeta. split; [vm_compute; discriminate|]. split; [repeat (constructor; [lia|]); constructor|]. do 2 (split; [vm_compute; reflexivity|]). vm_compute. reflexivity. Qed.

(* ------------------------------------------------------------------ C47 *)
(** Unpad accepts exactly: well-formed blocks; with an empty message, blocks with fewer random bytes; and blocks that have no zero byte at all. *)
Theorem C47_accepted_partial : forall block bits m, 8 <= bits -> Z.of_nat (length block) = block_bytes bits -> bytes block ->
  (exists r, pkcs_unpad block bits = ROk r) /\
  (pkcs_unpad block bits = ROk (Some m) <->
   (exists ps, block = pkcs_block bits ps m /\ non_zero_bytes ps /\ ((8 <= length ps)%nat \/ m = [])) \/ (exists ps, block = framed bits (2 :: ps) /\ non_zero_bytes ps /\ m = [])).
Proof. intros block bits m. apply pkcs_unpad_exact. Qed.
(** A message that is not empty comes from a well-formed block only. *)
Theorem C47_non_empty : forall block bits m, 8 <= bits -> Z.of_nat (length block) = block_bytes bits -> bytes block -> m <> [] -> (pkcs_unpad block bits = ROk (Some m) <-> pkcs_formed bits m block).
Proof.
  intros block bits m P L B N. rewrite (proj2 (pkcs_unpad_exact block bits m P L B)). unfold pkcs_formed. split.
  - intros [(ps & E & NZ & [H|H])|(ps & E & NZ & H)]; try contradiction. eauto.
  - intros (ps & E & NZ & H). left. exists ps. auto.
Qed.
(** The full claim fails: a block without a separator is taken for an empty message, and so is one with too few random bytes. *)
Theorem C47_well_formed_refuted : exists bits a b, block_of bits a /\ block_of bits b /\ pkcs_unpad a bits = ROk (Some []) /\ pkcs_unpad b bits = ROk (Some []) /\ ~ In 0 (tl a) /\ b = pkcs_block bits [7; 7; 7] [] /\
  (forall m, ~ pkcs_formed bits m a) /\ (forall m, ~ pkcs_formed bits m b).
Proof.
  exists 47, [0; 2; 1; 1; 1; 1], [0; 2; 7; 7; 7; 0]. assert (F : forall l, bytes l -> length l = 6%nat -> be_val l < 2 ^ 47 -> block_of 47 l) by (intros l B L V; split; [auto|split; [rewrite L; reflexivity|auto]]).
  split; [apply F; [repeat (constructor; [unfold byte; lia|]); constructor|reflexivity|vm_compute; reflexivity]|]. split; [apply F; [repeat (constructor; [unfold byte; lia|]); constructor|reflexivity|vm_compute; reflexivity]|]. do 2 (split; [vm_compute; reflexivity|]). split; [cbn; lia|]. split; [reflexivity|].
  split; intros m (ps & E & _ & L); apply (f_equal (@length _)) in E; unfold pkcs_block, framed in E; cbn in E; rewrite app_length in E; cbn in E; lia.
Qed.
Example C47_example : block_of 100 [0; 2; 1; 4; 5; 6; 7; 8; 9; 10; 0; 72; 105] /\ pkcs_formed 100 [72; 105] [0; 2; 1; 4; 5; 6; 7; 8; 9; 10; 0; 72; 105] /\ pkcs_unpad [0; 2; 1; 4; 5; 6; 7; 8; 0; 10; 0; 72; 105] 100 = ROk None /\ pkcs_unpad [1; 2; 1; 4; 5; 6; 7; 8; 9; 10; 0; 72; 105] 100 = ROk None.
Proof. split; [split; [repeat (constructor; [unfold byte; lia|]); constructor|split; reflexivity]|]. split; [exists [1; 4; 5; 6; 7; 8; 9; 10]; split; [reflexivity|split; [repeat (constructor; [lia|]); constructor|cbn; lia]]|]. split; vm_compute; reflexivity. Qed.

(* ------------------------------------------------------------------ C48 *)
(** Padding with OAEP gives the block the standard prescribes, and unpadding gives the message back, whatever the hash and the mask generating function are. *)
Theorem C48_round_trip : forall H hlen gam M seed label m bits buf, hash_of H hlen -> masks_with gam M -> 0 <= bits -> blen seed = hlen -> 2 * hlen + 1 + Z.of_nat (length m) <= bits / 8 -> Z.of_nat (length buf) = block_bytes bits -> bytes seed -> bytes m ->
  exists block, oaep_pad H hlen gam seed label m bits buf = ROk block /\ oaep_block H M bits seed label m block /\ block_of bits block /\ oaep_unpad H hlen gam block label bits = ROk (Some m).
Proof.
  intros H hlen gam M seed label m bits buf HH HM P Ls N Lb Bs Bm. destruct (oaep_pad_spec H hlen gam M HH HM seed label m bits buf P Ls N Lb) as (block & E & G). exists block. split; auto. split; auto. pose proof (oaep_block_fits H hlen gam M bits seed label m block HH HM P Bs Bm G) as Fit. split; auto.
  destruct Fit as (_ & L & _). apply (oaep_unpad_exact H hlen gam M HH HM block label bits m P ltac:(lia) L). eauto.
Qed.
(** Unpad accepts exactly the blocks that are the padding of a message with some seed. *)
Theorem C48_accepted : forall H hlen gam M block label bits m, hash_of H hlen -> masks_with gam M -> 0 <= bits -> 2 * hlen <= bits / 8 -> Z.of_nat (length block) = block_bytes bits ->
  (exists r, oaep_unpad H hlen gam block label bits = ROk r) /\ (oaep_unpad H hlen gam block label bits = ROk (Some m) <-> exists seed, Z.of_nat (length seed) = hlen /\ oaep_block H M bits seed label m block).
Proof. intros H hlen gam M block label bits m HH HM. apply oaep_unpad_exact; auto. Qed.
(** Another label is rejected unless the hashes collide. *)
Theorem C48_label : forall H hlen gam M block label label' bits seed m, hash_of H hlen -> masks_with gam M -> 0 <= bits -> 2 * hlen <= bits / 8 -> Z.of_nat (length seed) = hlen -> oaep_block H M bits seed label m block -> H label <> H label' ->
  oaep_unpad H hlen gam block label' bits = ROk None.
Proof. intros H hlen gam M block label label' bits seed m HH HM. apply oaep_label; auto. Qed.
(** With a key that is too short, unpadding reads outside the block, and padding the empty message, which is not longer than MaxUnpaddedLength, writes outside it. *)
Theorem C48_short_block_refuted : forall H hlen gam M seed block label bits buf, hash_of H hlen -> masks_with gam M -> 0 <= bits -> bits / 8 < 2 * hlen -> Z.of_nat (length block) = block_bytes bits -> Z.of_nat (length buf) = block_bytes bits ->
  oaep_unpad H hlen gam block label bits = RMemory /\ 0 <= oaep_max hlen bits /\ oaep_pad H hlen gam seed label [] bits buf = RMemory.
Proof.
  intros H hlen gam M seed block label bits buf HH HM P N Lb Lb2. split; [apply (oaep_short_unpad H hlen gam M); auto|]. split; [unfold oaep_max, sat_sub; rewrite Z.gtb_ltb; destruct (Z.ltb_spec (1 + 2 * hlen) (bits / 8)); lia|]. apply oaep_short_pad; auto. change (blen []) with 0. lia.
Qed.
Example C48_example : let block := [0; 192; 156; 180; 181; 183; 255; 209] in
  oaep_pad toy 1 (mgf1 toy) [77] [9] [72; 105] 57 (repeat 170 8) = ROk block /\ oaep_unpad toy 1 (mgf1 toy) block [9] 57 = ROk (Some [72; 105]) /\ toy [9] <> toy [8] /\ oaep_unpad toy 1 (mgf1 toy) block [8] 57 = ROk None /\
  oaep_unpad toy 1 (mgf1 toy) [0; 3] [9] 9 = RMemory.
Proof. cbv zeta. do 2 (split; [vm_compute; reflexivity|]). split; [vm_compute; discriminate|]. split; vm_compute; reflexivity. Qed.

(* ------------------------------------------------------------------ C49 *)
(** The representative is the one the standard prescribes, and recovery gives the message back, if the pad is not shorter than the one the verifier asks for. *)
Theorem C49_round_trip_partial : forall H hlen gam M recovery saltlen minpad salt r hid msg bits buf, hash_of H hlen -> masks_with gam M -> 0 <= minpad < 2 ^ 63 -> 0 < bits -> bits < 2 ^ 60 -> pssr_min hlen saltlen minpad (blen hid) <= bits ->
  Z.of_nat (length salt) = saltlen -> blen r <= pssr_max hlen recovery saltlen minpad bits (blen hid) -> Z.of_nat (length buf) = block_bytes bits -> bytes salt -> bytes r -> bytes hid ->
  exists block pad, pssr_compute H hlen gam salt r hid msg bits buf = ROk block /\ pss_block H M bits hid msg r salt pad block /\ block_of bits block /\ minpad <= Z.of_nat pad /\
  (minpad = 0 \/ bits mod 8 = 0 \/ minpad < Z.of_nat pad -> pssr_recover H hlen gam recovery saltlen minpad block hid msg bits = ROk (true, r)).
Proof.
  intros H hlen gam M recovery saltlen minpad salt r hid msg bits buf HH HM Pm P Pb B Ls Lr Lb Bs Br Bi. pose proof (blen_nonneg salt) as Ps. change (Z.of_nat (length salt)) with (blen salt) in Ls. pose proof (blen_nonneg hid) as Pi. pose proof (blen_nonneg r) as Pr.
  pose proof (pssr_room hlen recovery saltlen minpad bits (blen hid) (blen r) Pi Pr B Lr) as Room. pose proof (hlen_pos H hlen HH) as Ph.
  assert (Lbb : block_bytes bits < 2 ^ 60) by (unfold block_bytes; apply Z.div_lt_upper_bound; lia).
  destruct (pssr_compute_spec H hlen gam M recovery saltlen minpad HH HM ltac:(lia) ltac:(lia) salt r hid msg bits buf ltac:(lia) B Ls Lr ltac:(lia) Lb) as (block & pad & E & G & Ep). exists block, pad. split; auto. split; auto.
  pose proof (pss_block_of H hlen gam M bits hid msg r salt pad block HH HM P Bi Br Bs G) as (Fit & _). split; auto. split; [lia|]. intros C. destruct Fit as (_ & L & _).
  apply (pssr_recover_exact H hlen gam M recovery saltlen minpad HH HM ltac:(lia) ltac:(lia) block hid msg bits r); auto; try lia.
  - change (blen block) with (Z.of_nat (length block)). lia.
  - apply (pss_block_fits H gam M HM bits hid msg r salt pad block G).
  - exists salt, pad. split; auto. split; auto. split; auto. unfold lead. destruct (Z.eqb_spec (bits mod 8) 0); lia.
Qed.
(** In general it does not: with a least pad and a partial first byte, the verifier asks for one byte more than the signer must make, and rejects a representative at the greatest recoverable length. *)
Theorem C49_round_trip_refuted : exists H hlen saltlen minpad salt r msg bits buf block, hash_of H hlen /\ pssr_min hlen saltlen minpad 0 <= bits /\ Z.of_nat (length salt) = saltlen /\ blen r <= pssr_max hlen true saltlen minpad bits 0 /\ Z.of_nat (length buf) = block_bytes bits /\
  pssr_compute H hlen (mgf1 H) salt r [] msg bits buf = ROk block /\ pssr_recover H hlen (mgf1 H) true saltlen minpad block [] msg bits = ROk (false, []).
Proof.
  exists toy, 1, 1, 1, [5], [72; 105], [1; 2; 3], 49, (repeat 0 7), [1; 151; 223; 241; 156; 47; 188]. split; [apply toy_hash|]. split; [vm_compute; discriminate|]. split; [reflexivity|]. split; [vm_compute; discriminate|]. split; [reflexivity|]. split; vm_compute; reflexivity.
Qed.
(** What is accepted is the encoding of the message with some salt of the right length, and nothing else. *)
Theorem C49_accepted : forall H hlen gam M recovery saltlen minpad rep hid msg bits m, hash_of H hlen -> masks_with gam M -> 0 <= saltlen -> 0 <= minpad < 2 ^ 63 -> 0 <= bits -> pssr_min hlen saltlen minpad (blen hid) <= bits -> Z.of_nat (length rep) = block_bytes bits -> Z.of_nat (length rep) < 2 ^ 61 -> clear_top bits rep = rep ->
  (exists v, pssr_recover H hlen gam recovery saltlen minpad rep hid msg bits = ROk v) /\
  (pssr_recover H hlen gam recovery saltlen minpad rep hid msg bits = ROk (true, m) <->
   exists salt pad, Z.of_nat (length salt) = saltlen /\ blen m <= pssr_max hlen recovery saltlen minpad bits (blen hid) /\ (minpad = 0 \/ minpad + (if bits mod 8 =? 0 then 0 else 1) <= Z.of_nat pad) /\ pss_block H M bits hid msg m salt pad rep).
Proof. intros H hlen gam M recovery saltlen minpad rep hid msg bits m HH HM Hs Hp P B L Lb C. apply (pssr_recover_exact H hlen gam M recovery saltlen minpad HH HM Hs ltac:(lia) rep hid msg bits m); auto. lia. Qed.
Example C49_example : pssr_min 1 2 0 0 <= 60 /\ blen [72; 105] <= pssr_max 1 true 2 0 60 0 /\
  (exists block, pssr_compute toy 1 (mgf1 toy) [5; 6] [72; 105] [] [1; 2; 3] 60 (repeat 0 8) = ROk block /\ pssr_recover toy 1 (mgf1 toy) true 2 0 block [] [1; 2; 3] 60 = ROk (true, [72; 105]) /\ clear_top 60 block = block /\
   pssr_recover toy 1 (mgf1 toy) true 2 0 block [] [1; 2; 4] 60 = ROk (false, [72; 105])).
Proof. split; [vm_compute; discriminate|]. split; [vm_compute; discriminate|]. eexists. split; [vm_compute; reflexivity|]. split; [vm_compute; reflexivity|]. split; vm_compute; reflexivity. Qed.

(* ------------------------------------------------------------------ C84 *)
(** MGF1 writes, or exclusive-ors over the buffer, the hashes of the input with the counters from 0 on, cut to the length of the buffer; KDF2 the same from 1 on, with the parameters at the end. Beyond 2^32 blocks the counter starts again. *)
Theorem C84_mgf1 : forall H hlen, hash_of H hlen -> 1 <= hlen -> masks_with (mgf1 H) (fun input n => counter_mask H input [] 0 n).
Proof. exact mgf1_masks. Qed.
Theorem C84_kdf2 : forall H hlen out input params, hash_of H hlen -> 1 <= hlen -> kdf2 H out input params = ROk (counter_mask H input params 1 (length out)).
Proof. intros H hlen out input params HH P. unfold kdf2. rewrite (mgf_spec H hlen) by (auto; lia). reflexivity. Qed.
(** A shorter key is the start of a longer one. *)
Theorem C84_prefix : forall H hlen out out' input params k k', hash_of H hlen -> 1 <= hlen -> (length out <= length out')%nat -> kdf2 H out input params = ROk k -> kdf2 H out' input params = ROk k' -> k = firstn (length out) k'.
Proof.
  intros H hlen out out' input params k k' HH P L E E'. rewrite (C84_kdf2 H hlen) in E, E' by auto. injection E as <-. injection E' as <-. apply (counter_mask_prefix H hlen); auto.
Qed.
Example C84_example : kdf2 toy [0; 0; 0] [1; 2] [3] = ROk [231; 6; 37] /\ mgf1 toy true [255; 255; 0] [1; 2] = ROk [125; 124; 132].
Proof. split; vm_compute; reflexivity. Qed.

(* ------------------------------------------------------------------ C87 *)
(** The representative of a PKCS #1 v1.5 signature is the block the standard prescribes, and verification accepts that block and no other. *)
Theorem C87_representative : forall H hlen hid msg bits buf, hash_of H hlen -> 0 <= bits -> pkcs_sig_min (blen hid) hlen <= bits -> Z.of_nat (length buf) = block_bytes bits -> exists rep, pkcs_sig_representative H hlen hid msg bits buf = ROk rep /\ pkcs_signature_block bits hid (H msg) rep.
Proof. intros H hlen hid msg bits buf HH P. apply pkcs_signature_spec; auto. Qed.
Theorem C87_accepted : forall H hlen hid msg bits buf rep, hash_of H hlen -> 0 <= bits -> pkcs_sig_min (blen hid) hlen <= bits -> Z.of_nat (length buf) = block_bytes bits -> Z.of_nat (length rep) = block_bytes bits ->
  exists v, pkcs_sig_verify H hlen rep hid msg bits buf = ROk v /\ (v = true <-> pkcs_signature_block bits hid (H msg) rep).
Proof. intros H hlen hid msg bits buf rep HH P. apply pkcs_verify_exact; auto. Qed.
Theorem C87_unique : forall bits hid d a b, pkcs_signature_block bits hid d a -> pkcs_signature_block bits hid d b -> a = b.
Proof. exact signature_block_unique. Qed.
Example C87_example : pkcs_sig_min 1 1 <= 100 /\ pkcs_sig_representative toy 1 [48] [1; 2; 3] 100 (repeat 0 13) = ROk [0; 1; 255; 255; 255; 255; 255; 255; 255; 255; 0; 48; 136] /\
  pkcs_sig_verify toy 1 [0; 1; 255; 255; 255; 255; 255; 255; 255; 255; 0; 48; 136] [48] [1; 2; 3] 100 (repeat 9 13) = ROk true /\ pkcs_sig_verify toy 1 [0; 1; 255; 255; 255; 255; 255; 255; 0; 48; 136; 1; 1] [48] [1; 2; 3] 100 (repeat 9 13) = ROk false.
Proof. split; [vm_compute; discriminate|]. do 2 (split; [vm_compute; reflexivity|]). vm_compute. reflexivity. Qed.

(* ------------------------------------------------------------------ C85 *)
(** RSA encryption with PKCS #1 v1.5: the ciphertext has the length of the modulus and decrypts to the message. *)
Theorem C85_pkcs : forall w fuel k m blocks words msg, word_bits w -> holds w k m -> rsa_key m -> blinding_blocks (n_ m) blocks -> n_ m < 2 ^ (Z.of_nat fuel - 1) -> words32 words -> bytes msg -> 2 <= Z.log2 (n_ m) / 8 -> blen msg <= pkcs_max (Z.log2 (n_ m)) ->
  (rsaes_pkcs_encrypt w fuel words (k_n k) (k_e k) msg = RStuck /\ Z.of_nat (usable words) < Z.log2 (n_ m) / 8 - Z.of_nat (length msg) - 2) \/
  exists c, rsaes_pkcs_encrypt w fuel words (k_n k) (k_e k) msg = ROk c /\ length c = octets (n_ m) /\
  ((rsaes_pkcs_decrypt w fuel k blocks c = RStuck /\ Forall (fun b => ~ blinds (n_ m) b) blocks) \/ rsaes_pkcs_decrypt w fuel k blocks c = ROk (Some msg)).
Proof.
  intros w fuel k m blocks words msg Hw Hk Key F L Wd Bm N Lm. pose proof (Z.log2_nonneg (n_ m)) as P. assert (ZB : Z.of_nat (length (zeros (block_bytes (Z.log2 (n_ m))))) = block_bytes (Z.log2 (n_ m))) by (apply zeros_blen; apply block_bytes_room; auto).
  destruct (C46_round_trip words msg (Z.log2 (n_ m)) (zeros (block_bytes (Z.log2 (n_ m)))) P N Lm ZB Wd Bm) as [(E & C)|(block & rest & ps & E & _ & _ & _ & Fit & U)].
  - left. split; auto. unfold rsaes_pkcs_encrypt, tf_encrypt. pose proof Key as (_ & _ & Eq). pose proof (key_public m Eq) as (N1 & _). pose proof Hk as (Hn & _). rewrite (tf_bits_int w Hw _ _ Hn N1). rewrite Z.gtb_ltb. destruct (Z.ltb_spec (pkcs_max (Z.log2 (n_ m))) (blen msg)); [lia|]. change (bits_to_bytes (Z.log2 (n_ m))) with (block_bytes (Z.log2 (n_ m))). rewrite E. reflexivity.
  - right. destruct (tf_round_trip w Hw fuel pkcs_max (fun m bits buf => rbind (pkcs_pad words m bits buf) (fun bw => ROk (fst bw))) pkcs_unpad k m blocks msg block Hk Key F L Lm ltac:(unfold bits_to_bytes; fold (block_bytes (Z.log2 (n_ m))); cbv beta; rewrite E; reflexivity) Fit) as (c & Ec & Lc & D). exists c. split; auto. split; auto. unfold rsaes_pkcs_decrypt. rewrite U in D. auto.
Qed.
(** The same with OAEP. *)
Theorem C85_oaep : forall w fuel H hlen seed label k m blocks msg, word_bits w -> holds w k m -> rsa_key m -> blinding_blocks (n_ m) blocks -> n_ m < 2 ^ (Z.of_nat fuel - 1) -> hash_of H hlen -> 1 <= hlen -> Z.of_nat (length seed) = hlen -> bytes seed -> bytes msg -> 2 * hlen + 1 + Z.of_nat (length msg) <= Z.log2 (n_ m) / 8 ->
  exists c, rsaes_oaep_encrypt w fuel H hlen seed label (k_n k) (k_e k) msg = ROk c /\ length c = octets (n_ m) /\
  ((rsaes_oaep_decrypt w fuel H hlen label k blocks c = RStuck /\ Forall (fun b => ~ blinds (n_ m) b) blocks) \/ rsaes_oaep_decrypt w fuel H hlen label k blocks c = ROk (Some msg)).
Proof.
  intros w fuel H hlen seed label k m blocks msg Hw Hk Key F L HH Ph Ls Bs Bm N. pose proof (Z.log2_nonneg (n_ m)) as P. assert (ZB : Z.of_nat (length (zeros (block_bytes (Z.log2 (n_ m))))) = block_bytes (Z.log2 (n_ m))) by (apply zeros_blen; apply block_bytes_room; auto).
  destruct (C48_round_trip H hlen (mgf1 H) _ seed label msg (Z.log2 (n_ m)) _ HH (mgf1_masks H hlen HH Ph) P Ls N ZB Bs Bm) as (block & E & _ & Fit & U).
  assert (Lm : blen msg <= oaep_max hlen (Z.log2 (n_ m))) by (unfold oaep_max, sat_sub, blen; rewrite Z.gtb_ltb; destruct (Z.ltb_spec (1 + 2 * hlen) (Z.log2 (n_ m) / 8)); lia).
  destruct (tf_round_trip w Hw fuel (oaep_max hlen) (fun m bits buf => oaep_pad H hlen (mgf1 H) seed label m bits buf) (fun b bits => oaep_unpad H hlen (mgf1 H) b label bits) k m blocks msg block Hk Key F L Lm E Fit) as (c & Ec & Lc & D). exists c. split; auto. split; auto. cbv beta in D. rewrite U in D. auto.
Qed.
(** A message that is too long is refused, and so is a ciphertext of another length. *)
Theorem C85_refused : forall w fuel H hlen seed label words k m blocks msg c, word_bits w -> holds w k m -> rsa_key m ->
  (pkcs_max (Z.log2 (n_ m)) < Z.of_nat (length msg) -> rsaes_pkcs_encrypt w fuel words (k_n k) (k_e k) msg = RThrow) /\ (oaep_max hlen (Z.log2 (n_ m)) < Z.of_nat (length msg) -> rsaes_oaep_encrypt w fuel H hlen seed label (k_n k) (k_e k) msg = RThrow) /\
  (length c <> octets (n_ m) -> rsaes_pkcs_decrypt w fuel k blocks c = RThrow /\ rsaes_oaep_decrypt w fuel H hlen label k blocks c = RThrow).
Proof.
  intros w fuel H hlen seed label words k m blocks msg c Hw Hk Key. pose proof Key as (_ & _ & Eq). pose proof (key_public m Eq) as Pub. pose proof Hk as (Hn & He & _). split; [|split].
  - intros L. eapply (tf_encrypt_too_long w Hw); eauto.
  - intros L. eapply (tf_encrypt_too_long w Hw); eauto.
  - intros L. split; eapply (tf_decrypt_length w Hw); eauto.
Qed.
(** What OAEP decryption returns was put, with some seed, into a block whose power is the ciphertext. *)
Theorem C85_oaep_sound : forall w fuel H hlen label k m blocks c msg, word_bits w -> holds w k m -> rsa_key m -> blinding_blocks (n_ m) blocks -> n_ m < 2 ^ (Z.of_nat fuel - 1) -> hash_of H hlen -> 1 <= hlen -> 2 * hlen <= Z.log2 (n_ m) / 8 -> bytes c ->
  rsaes_oaep_decrypt w fuel H hlen label k blocks c = ROk (Some msg) ->
  length c = octets (n_ m) /\ be_val c < n_ m /\ exists seed block, Z.of_nat (length seed) = hlen /\ oaep_block H (fun i n => counter_mask H i [] 0 n) (Z.log2 (n_ m)) seed label msg block /\ (be_val block = be_val c ^ d_ m mod n_ m \/ be_val block = 0).
Proof.
  intros w fuel H hlen label k m blocks c msg Hw Hk Key F L HH Ph N B E. destruct (tf_decrypt_sound w Hw fuel _ k m blocks c msg Hk Key F L B E) as (Lc & Rc & U). cbv zeta in U. split; auto. split; auto. pose proof (Z.log2_nonneg (n_ m)) as P. destruct (block_bytes_room _ P) as (_ & Pb).
  set (size := block_bytes (Z.log2 (n_ m))) in *. set (v := be_val c ^ d_ m mod n_ m) in *. pose proof Key as (_ & _ & Eq). pose proof (key_public m Eq) as (N1 & _). assert (V : 0 <= v < n_ m) by (apply Z.mod_pos_bound; lia).
  apply (C48_accepted H hlen (mgf1 H) _ _ label (Z.log2 (n_ m)) msg HH (mgf1_masks H hlen HH Ph) P N) in U as (seed & Ls & G); [|rewrite be_bytes_length; fold size; lia]. exists seed. eexists. split; auto. split; [exact G|]. rewrite be_val_bytes_mod, Z2Nat.id by lia. unfold within. destruct (Z.ltb_spec v (256 ^ size)); [left; apply Z.mod_small; lia|right; apply Z.mod_0_l; pose proof (Z.pow_pos_nonneg 256 size); lia].
Qed.

(* ------------------------------------------------------------------ C86 *)
(** RSA signatures with PKCS #1 v1.5: a signature has the length of the modulus and verifies; a signature is accepted if and only if its power is the value of the encoded message. *)
Theorem C86_pkcs_sign_verify : forall w fuel H hlen hid msg k m blocks, word_bits w -> holds w k m -> rsa_key m -> blinding_blocks (n_ m) blocks -> n_ m < 2 ^ (Z.of_nat fuel - 1) -> hash_of H hlen -> bytes hid -> pkcs_sig_min (blen hid) hlen <= Z.log2 (n_ m) ->
  (rsass_pkcs_sign w fuel H hlen hid msg k blocks = RStuck /\ Forall (fun b => ~ blinds (n_ m) b) blocks) \/
  exists sig, rsass_pkcs_sign w fuel H hlen hid msg k blocks = ROk sig /\ length sig = octets (n_ m) /\ rsass_pkcs_verify w fuel H hlen hid msg (k_n k) (k_e k) sig = ROk true.
Proof.
  intros w fuel H hlen hid msg k m blocks Hw Hk Key F L HH Bi N. pose proof (Z.log2_nonneg (n_ m)) as P. assert (ZB : blen (zeros (block_bytes (Z.log2 (n_ m)))) = block_bytes (Z.log2 (n_ m))) by (apply zeros_blen; apply block_bytes_room; auto).
  destruct (pkcs_signature_spec H hlen hid msg (Z.log2 (n_ m)) _ P HH N ZB) as (r & E & G). destruct (signature_block_fits H hlen (Z.log2 (n_ m)) hid msg r HH P Bi G) as (Fit & _).
  destruct (tf_sign_spec w Hw fuel (pkcs_sig_min (blen hid) hlen) (fun bits buf => pkcs_sig_representative H hlen hid msg bits buf) k m blocks r Hk Key F L N E Fit) as [S|S]; [left; auto|right]. eexists. split; [exact S|]. split; [apply be_bytes_length|].
  unfold rsass_pkcs_verify, tf_verify. rewrite (tf_sign_input w Hw fuel _ k m r) by auto. cbn [rbind]. pose proof Key as (_ & _ & Eq). pose proof (key_public m Eq) as (N1 & _). pose proof Hk as (Hn & _). rewrite (tf_bits_int w Hw _ _ Hn N1).
  destruct (pkcs_verify_exact H hlen hid msg (Z.log2 (n_ m)) (zeros (bits_to_bytes (Z.log2 (n_ m)))) r P HH N ZB ltac:(apply Fit)) as (v & -> & V). f_equal. apply V. auto.
Qed.
Theorem C86_pkcs_accepted : forall w fuel H hlen hid msg n e vn ve sig, word_bits w -> is_int w n vn -> is_int w e ve -> public_key vn ve -> ve < 2 ^ (Z.of_nat fuel - 1) -> hash_of H hlen -> bytes hid -> bytes sig -> pkcs_sig_min (blen hid) hlen <= Z.log2 vn ->
  (rsass_pkcs_verify w fuel H hlen hid msg n e sig = ROk true <-> exists block, pkcs_signature_block (Z.log2 vn) hid (H msg) block /\ be_val sig ^ ve mod vn = be_val block).
Proof.
  intros w fuel H hlen hid msg n e vn ve sig Hw Hn He Pub F HH Bi Bs N. pose proof (Z.log2_nonneg vn) as P. assert (ZB : blen (zeros (block_bytes (Z.log2 vn))) = block_bytes (Z.log2 vn)) by (apply zeros_blen; apply block_bytes_room; auto). unfold rsass_pkcs_verify. apply (tf_verify_exact w Hw); auto.
  - intros r (_ & Lr & _). destruct (pkcs_verify_exact H hlen hid msg (Z.log2 vn) (zeros (bits_to_bytes (Z.log2 vn))) r P HH N ZB Lr) as (v & -> & V). rewrite <- V. split; [intros [= ->]; auto|intros ->; auto].
  - intros r G. apply (signature_block_fits H hlen _ hid msg r HH P Bi G).
Qed.
(** With PSS, and PSSR: a signature verifies, or gives the recoverable message back. *)
Theorem C86_pss_sign_recover : forall w fuel H hlen recovery saltlen minpad salt r hid msg k m blocks, word_bits w -> holds w k m -> rsa_key m -> blinding_blocks (n_ m) blocks -> n_ m < 2 ^ (Z.of_nat fuel - 1) -> hash_of H hlen -> 1 <= hlen -> bytes hid -> bytes salt -> bytes r ->
  0 <= minpad < 2 ^ 63 -> Z.log2 (n_ m) < 2 ^ 60 -> pssr_min hlen saltlen minpad (blen hid) <= Z.log2 (n_ m) -> Z.of_nat (length salt) = saltlen -> blen r <= pssr_max hlen recovery saltlen minpad (Z.log2 (n_ m)) (blen hid) -> minpad = 0 \/ Z.log2 (n_ m) mod 8 = 0 ->
  (rsass_pss_sign w fuel H hlen saltlen minpad salt r hid msg k blocks = RStuck /\ Forall (fun b => ~ blinds (n_ m) b) blocks) \/
  exists sig, rsass_pss_sign w fuel H hlen saltlen minpad salt r hid msg k blocks = ROk sig /\ length sig = octets (n_ m) /\ rsass_pss_recover w fuel H hlen recovery saltlen minpad hid msg (k_n k) (k_e k) sig = ROk (true, r) /\
    (r = [] -> rsass_pss_verify w fuel H hlen recovery saltlen minpad hid msg (k_n k) (k_e k) sig = ROk true).
Proof.
  intros w fuel H hlen recovery saltlen minpad salt r hid msg k m blocks Hw Hk Key F L HH Ph Bi Bs Br Pm Lg N Ls Lr Md. pose proof (Z.log2_nonneg (n_ m)) as P. assert (ZB : Z.of_nat (length (zeros (block_bytes (Z.log2 (n_ m))))) = block_bytes (Z.log2 (n_ m))) by (apply zeros_blen; apply block_bytes_room; auto).
  assert (P1 : 0 < Z.log2 (n_ m)) by (unfold pssr_min in N; pose proof (blen_nonneg hid); lia).
  destruct (C49_round_trip_partial H hlen (mgf1 H) _ recovery saltlen minpad salt r hid msg (Z.log2 (n_ m)) _ HH (mgf1_masks H hlen HH Ph) Pm P1 Lg N Ls Lr ZB Bs Br Bi) as (block & pad & E & _ & Fit & _ & V). specialize (V ltac:(tauto)).
  destruct (tf_sign_spec w Hw fuel (pssr_min hlen saltlen minpad (blen hid)) (fun bits buf => pssr_compute H hlen (mgf1 H) salt r hid msg bits buf) k m blocks block Hk Key F L N E Fit) as [S|S]; [left; auto|right]. eexists. split; [exact S|]. split; [apply be_bytes_length|].
  pose proof Key as (_ & _ & Eq). pose proof (key_public m Eq) as (N1 & _). pose proof Hk as (Hn & _). unfold rsass_pss_recover, tf_recover, rsass_pss_verify, tf_verify. rewrite (tf_sign_input w Hw fuel _ k m block) by auto. cbn [rbind]. rewrite (tf_bits_int w Hw _ _ Hn N1). split; auto. intros ->. unfold pssr_verify. rewrite V. reflexivity.
Qed.
Theorem C86_pss_accepted : forall w fuel H hlen recovery saltlen minpad hid msg n e vn ve sig, word_bits w -> is_int w n vn -> is_int w e ve -> public_key vn ve -> ve < 2 ^ (Z.of_nat fuel - 1) -> hash_of H hlen -> 1 <= hlen -> bytes hid -> bytes sig -> 0 <= saltlen -> 0 <= minpad < 2 ^ 63 -> Z.log2 vn < 2 ^ 60 -> pssr_min hlen saltlen minpad (blen hid) <= Z.log2 vn ->
  (rsass_pss_verify w fuel H hlen recovery saltlen minpad hid msg n e sig = ROk true <->
   exists block salt pad, Z.of_nat (length salt) = saltlen /\ (minpad = 0 \/ minpad + (if Z.log2 vn mod 8 =? 0 then 0 else 1) <= Z.of_nat pad) /\ block_of (Z.log2 vn) block /\ pss_block H (fun i n => counter_mask H i [] 0 n) (Z.log2 vn) hid msg [] salt pad block /\ be_val sig ^ ve mod vn = be_val block).
Proof.
  intros w fuel H hlen recovery saltlen minpad hid msg n e vn ve sig Hw Hn He Pub F HH Ph Bi Bs Hs Hp Lg N. pose proof (Z.log2_nonneg vn) as P. pose proof (mgf1_masks H hlen HH Ph) as HM.
  unfold rsass_pss_verify. rewrite (tf_verify_exact w Hw fuel _ n e vn ve sig _ (fun block => exists salt pad, Z.of_nat (length salt) = saltlen /\ (minpad = 0 \/ minpad + (if Z.log2 vn mod 8 =? 0 then 0 else 1) <= Z.of_nat pad) /\ block_of (Z.log2 vn) block /\ pss_block H (fun i n => counter_mask H i [] 0 n) (Z.log2 vn) hid msg [] salt pad block)); auto.
  - split; [intros (block & (salt & pad & A & B & C & D) & E); exists block, salt, pad; auto|intros (block & salt & pad & A & B & C & D & E); exists block; split; auto; exists salt, pad; auto].
  - intros r Br. pose proof Br as (B1 & B2 & B3). assert (Ct : clear_top (Z.log2 vn) r = r) by (apply block_of_clear; auto; unfold pssr_min in N; pose proof (blen_nonneg hid); lia). assert (Lb : Z.of_nat (length r) < 2 ^ 61) by (rewrite B2; unfold block_bytes; apply Z.div_lt_upper_bound; lia).
    assert (Mx : 0 <= pssr_max hlen recovery saltlen minpad (Z.log2 vn) (blen hid)) by (unfold pssr_max, sat_sub; destruct recovery; [|lia]; apply Z.div_pos; [|lia]; rewrite Z.gtb_ltb; destruct (Z.ltb_spec (pssr_min hlen saltlen minpad (blen hid)) (Z.log2 vn)); lia).
    destruct (C49_accepted H hlen (mgf1 H) _ recovery saltlen minpad r hid msg (Z.log2 vn) [] HH HM Hs Hp P N B2 Lb Ct) as ((v & Ev) & X). unfold pssr_verify. rewrite Ev in *. cbn [rbind]. destruct v as (ok & message). cbn [fst snd]. split.
    + intros [= E]. apply andb_prop in E as (-> & E). apply Z.eqb_eq, blen_zero in E. subst message. destruct (proj1 X eq_refl) as (salt & pad & A & _ & C & D). exists salt, pad. auto.
    + intros (salt & pad & A & C & _ & D). assert (E : ROk (ok, message) = ROk (true, [])) by (apply X; exists salt, pad; auto). injection E as -> ->. reflexivity.
  - intros r (salt & pad & A & C & Br & (E & _)). split; auto. cbv zeta in E. intros Z0. destruct Br as (B1 & _). rewrite E in Z0, B1. rewrite !app_assoc in Z0, B1. rewrite be_val_app in Z0. apply Forall_app in B1 as (B1 & _). pose proof (be_val_bounds _ B1) as (V & _). destruct hid; [change (be_val [188]) with 188 in Z0|change (be_val [204]) with 204 in Z0]; cbn [length] in Z0; lia.
Qed.
(** The length of a signature is not checked: a zero in front of it, or the modulus added to it, gives another accepted string. *)
Theorem C86_one_encoding_refuted : forall w fuel H hlen hid msg n e vn ve sig other, word_bits w -> is_int w n vn -> is_int w e ve -> public_key vn ve -> ve < 2 ^ (Z.of_nat fuel - 1) -> hash_of H hlen -> bytes hid -> bytes sig -> bytes other -> pkcs_sig_min (blen hid) hlen <= Z.log2 vn ->
  be_val other mod vn = be_val sig mod vn -> rsass_pkcs_verify w fuel H hlen hid msg n e sig = ROk true -> rsass_pkcs_verify w fuel H hlen hid msg n e other = ROk true.
Proof.
  intros w fuel H hlen hid msg n e vn ve sig other Hw Hn He Pub F HH Bi Bs Bo N E. rewrite !(C86_pkcs_accepted w fuel H hlen hid msg n e vn ve) by auto. intros (block & G & V). exists block. split; auto. rewrite <- V. apply (NumberTheory.eqm_pow vn). exact E.
Qed.

(** A key of 101 bits. *)
Definition p101 : Z := 1125905745313793.
Definition q101 : Z := 1125909369192449.
Definition num101 : rsa_numbers := mkNum 1267667827476406818406511149057 5 3777944527496113081549 p101 q101 450362298125517 675545621515469 354451808399207.
Definition key101 : rsa_private := mkRsa (mkInt false [18354420296649277441; 68720410626]) (small 5) (mkInt false [14808736459364551885; 204]) (small p101) (small q101) (small 450362298125517) (small 675545621515469) (small 354451808399207).
Lemma holds101 : holds 64 key101 num101.
Proof. unfold holds. cbn [key101 num101 k_n k_e k_d k_p k_q k_dp k_dq k_u n_ e_ d_ p_ q_ dp_ dq_ u_]. do 7 (split; [lit 1%nat|]). lit 1%nat. Qed.
Lemma rsa_key101 : rsa_key num101.
Proof.
  split; [apply (proth p101 16777303 26 3); vm_compute; (reflexivity || discriminate || (split; reflexivity))|]. split; [apply (proth q101 16777357 26 3); vm_compute; (reflexivity || discriminate || (split; reflexivity))|].
  unfold rsa_equations. vm_compute. intuition (try reflexivity; try discriminate).
Qed.
Definition blocks101 : list (list Z) := [[12; 34; 56; 78; 90; 12; 34; 56; 78; 90; 12; 34; 57]].
Lemma hypotheses101 : holds 64 key101 num101 /\ rsa_key num101 /\ blinding_blocks (n_ num101) blocks101 /\ n_ num101 < 2 ^ (Z.of_nat 120 - 1) /\ pkcs_sig_min 1 1 <= Z.log2 (n_ num101) /\ public_key (n_ num101) (e_ num101).
Proof.
  split; [apply holds101|]. split; [apply rsa_key101|]. split; [constructor; [split; [vm_compute; reflexivity|repeat (constructor; [unfold byte; lia|]); constructor]|constructor]|]. split; [vm_compute; reflexivity|]. split; [vm_compute; discriminate|]. vm_compute. intuition (try reflexivity; try discriminate).
Qed.
(** The key meets the hypotheses of the theorems, and the schemes work with it. *)
Example C85_example : exists s, rsaes_oaep_encrypt 64 120 toy 1 [77] [9] (k_n key101) (k_e key101) [72; 101; 108; 108; 111] = ROk s /\ rsaes_oaep_decrypt 64 120 toy 1 [9] key101 blocks101 s = ROk (Some [72; 101; 108; 108; 111]).
Proof. eexists. split; [vm_compute; reflexivity|]. vm_compute. reflexivity. Qed.
Example C86_example : exists s, rsass_pkcs_sign 64 120 toy 1 [48] [1; 2; 3] key101 blocks101 = ROk s /\ rsass_pkcs_verify 64 120 toy 1 [48] [1; 2; 3] (k_n key101) (k_e key101) (0 :: s) = ROk true /\ rsass_pkcs_verify 64 120 toy 1 [48] [1; 2; 4] (k_n key101) (k_e key101) s = ROk false.
Proof. eexists. split; [vm_compute; reflexivity|]. split; vm_compute; reflexivity. Qed.

Print Assumptions C46_round_trip.
Print Assumptions C47_accepted_partial.
Print Assumptions C47_non_empty.
Print Assumptions C47_well_formed_refuted.
Print Assumptions C48_round_trip.
Print Assumptions C48_accepted.
Print Assumptions C48_label.
Print Assumptions C48_short_block_refuted.
Print Assumptions C49_round_trip_partial.
Print Assumptions C49_round_trip_refuted.
Print Assumptions C49_accepted.
Print Assumptions C84_mgf1.
Print Assumptions C84_kdf2.
Print Assumptions C84_prefix.
Print Assumptions C87_representative.
Print Assumptions C87_accepted.
Print Assumptions C87_unique.
Print Assumptions C85_pkcs.
Print Assumptions C85_oaep.
Print Assumptions C85_refused.
Print Assumptions C85_oaep_sound.
Print Assumptions C86_pkcs_sign_verify.
Print Assumptions C86_pkcs_accepted.
Print Assumptions C86_pss_sign_recover.
Print Assumptions C86_pss_accepted.
Print Assumptions C86_one_encoding_refuted.
