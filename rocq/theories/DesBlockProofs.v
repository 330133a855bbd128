(** Blocks of DES, triple DES and DES-XEX3. *)
From Coq Require Import ZArith List Bool Arith Lia.
From Verif Require Import Base CipherModel CipherSpec CipherProofs DesModel DesSpec DesProofs DesRunProofs.
Import ListNotations.
Open Scope nat_scope.

(** * FIPS 46-3 on its own *)
Lemma xor_twice : forall a b, length a = length b -> xor_bits (xor_bits a b) b = a.
Proof.
  induction a as [|x a IH]; intros [|y b] H; try discriminate; [reflexivity|]. unfold xor_bits in *. cbn [combine map].
  rewrite IH by (now injection H). destruct x, y; reflexivity.
Qed.
Definition flip (lr : list bool * list bool) : list bool * list bool := (snd lr, fst lr).
Definition halves (lr : list bool * list bool) : Prop := length (fst lr) = 32 /\ length (snd lr) = 32.
Lemma iteration_halves : forall lr k, halves lr -> halves (iteration lr k).
Proof. intros [l r] k [H1 H2]. unfold iteration, halves. cbn [fst snd] in *. split; [exact H2|]. rewrite xor_length; [exact H1|rewrite f_length; exact H1]. Qed.
Lemma iterations_halves : forall ks lr, halves lr -> halves (fold_left iteration ks lr).
Proof. induction ks as [|k ks IH]; intros lr H; cbn [fold_left]; [exact H|]. apply IH, iteration_halves, H. Qed.
Lemma iteration_back : forall lr k, halves lr -> iteration (flip (iteration lr k)) k = flip lr.
Proof.
  intros [l r] k [H1 H2]. unfold iteration, flip. cbn [fst snd] in *. f_equal. apply xor_twice. rewrite f_length. exact H1.
Qed.
Lemma iterations_back : forall ks lr, halves lr -> fold_left iteration (rev ks) (flip (fold_left iteration ks lr)) = flip lr.
Proof.
  induction ks as [|k ks IH]; intros lr H; [reflexivity|]. cbn [fold_left rev]. rewrite fold_left_app. cbn [fold_left].
  rewrite IH by (apply iteration_halves, H). apply iteration_back, H.
Qed.
Lemma as_seq : forall b : list bool, b = map (fun p => nth p b false) (seq 0 (length b)).
Proof. intros b. apply list_ext; [rewrite map_length, seq_length; reflexivity|]. intros i Hi. rewrite nth_map_seq by exact Hi. reflexivity. Qed.
Lemma IP_there : forall b, length b = 64 -> select IP (select IP_inverse b) = b.
Proof.
  intros b H. rewrite (as_seq b), H. generalize (fun p => nth p b false) as h. intros h. vm_compute. reflexivity.
Qed.
Lemma IP_back : forall b, length b = 64 -> select IP_inverse (select IP b) = b.
Proof.
  intros b H. rewrite (as_seq b), H. generalize (fun p => nth p b false) as h. intros h. vm_compute. reflexivity.
Qed.
Definition split_IP (b : list bool) : list bool * list bool := (firstn 32 (select IP b), skipn 32 (select IP b)).
Definition join_IP (lr : list bool * list bool) : list bool := select IP_inverse (snd lr ++ fst lr).
Lemma split_halves : forall b, halves (split_IP b).
Proof. intros b. split; cbn [split_IP fst snd]; [rewrite firstn_length|rewrite skipn_length]; rewrite select_length; reflexivity. Qed.
Lemma join_length : forall lr, length (join_IP lr) = 64.
Proof. intros. unfold join_IP. apply select_length. Qed.
Lemma split_join : forall lr, halves lr -> split_IP (join_IP lr) = flip lr.
Proof.
  intros [l r] [H1 H2]. cbn [fst snd] in *. unfold split_IP, join_IP. cbn [fst snd]. rewrite IP_there by (rewrite app_length; lia).
  unfold flip. cbn [fst snd]. rewrite <- H2 at 1 2. rewrite firstn_app_exact, skipn_app_exact. reflexivity.
Qed.
Lemma join_split : forall b, length b = 64 -> join_IP (flip (split_IP b)) = b.
Proof. intros b H. unfold join_IP, flip, split_IP. cbn [fst snd]. rewrite firstn_skipn. apply IP_back, H. Qed.
Lemma cipher_eq : forall ks b, cipher ks b = join_IP (fold_left iteration ks (split_IP b)).
Proof. intros ks b. unfold cipher, split_IP, join_IP. destruct (fold_left _ _ _) as [l r]. reflexivity. Qed.
Lemma cipher_length : forall ks b, length (cipher ks b) = 64.
Proof. intros. rewrite cipher_eq. apply join_length. Qed.
Lemma cipher_back : forall ks b, length b = 64 -> cipher (rev ks) (cipher ks b) = b.
Proof.
  intros ks b H. rewrite !cipher_eq, split_join by (apply iterations_halves, split_halves).
  rewrite iterations_back by apply split_halves. apply join_split, H.
Qed.
Lemma cipher_forth : forall ks b, length b = 64 -> cipher ks (cipher (rev ks) b) = b.
Proof. intros ks b H. rewrite <- (rev_involutive ks) at 1. apply cipher_back, H. Qed.

(** * The frame *)
(** [E] computes the function [phi] of bits. *)
Definition computes (E : block_fun) (phi : list bool -> list bool) : Prop :=
  forall b, bytes b -> length b = 8 -> exists c, E b None = Some c /\ bytes c /\ length c = 8 /\ bits_of c = phi (bits_of b).
Lemma computes_undoes : forall E D phi psi, computes E phi -> computes D psi ->
  (forall b, length b = 64 -> psi (phi b) = b) -> undoes 8 E D.
Proof.
  intros E D phi psi HE HD H b Hb L. destruct (HE b Hb L) as (c & C1 & C2 & C3 & C4). exists c. repeat split; auto.
  destruct (HD c C2 C3) as (d & D1 & D2 & D3 & D4). rewrite D1. f_equal. apply bits_inj; auto; [lia|].
  rewrite D4, C4. apply H. rewrite bits_of_length, L. reflexivity.
Qed.

Lemma frame_ok : forall F phi, (forall s st, shows2 s st -> shows2 (F s) (phi st)) ->
  computes (process true 4 2 (des_frame F)) (fun b => join_IP (phi (split_IP b))).
Proof.
  intros F phi H b Hb L. unfold process.
  destruct b as [|b0 [|b1 [|b2 [|b3 [|b4 [|b5 [|b6 [|b7 [|]]]]]]]]]; try discriminate.
  set (l := be_val [b0; b1; b2; b3]). set (r := be_val [b4; b5; b6; b7]).
  change (get_block true 4 2 [b0; b1; b2; b3; b4; b5; b6; b7]) with [l; r]. cbn [des_frame].
  set (B := bits_of [b0; b1; b2; b3; b4; b5; b6; b7]).
  assert (BS : bytes [b0; b1; b2; b3] /\ bytes [b4; b5; b6; b7]) by (apply bytes_app; exact Hb). destruct BS as [BL BR].
  assert (BA : B = bits_of [b0; b1; b2; b3] ++ bits_of [b4; b5; b6; b7]) by (unfold B; rewrite <- bits_of_app; reflexivity).
  assert (RI : routed2 B (plain 0) (plain 32) (l, r)).
  { assert (WD : forall s, bytes s -> length s = 4 -> word 32 (be_val s)).
    { intros s Hs Ls. pose proof (be_val_bounds s Hs) as X. rewrite Ls in X. exact X. }
    split; (split; [apply WD; auto|]); intros i Hi; cbn [fst snd]; unfold plain; rewrite nth_map_seq by exact Hi.
    - unfold l. replace i with (8 * length [b0; b1; b2; b3] - 1 - (31 - i)) at 1 by (cbn [length]; lia). rewrite be_val_bit by (auto; cbn [length]; lia).
      rewrite BA, app_nth1 by (rewrite bits_of_length; cbn [length]; lia). reflexivity.
    - unfold r. replace i with (8 * length [b4; b5; b6; b7] - 1 - (31 - i)) at 1 by (cbn [length]; lia). rewrite be_val_bit by (auto; cbn [length]; lia).
      rewrite BA, app_nth2 by (rewrite bits_of_length; cbn [length]; lia). rewrite bits_of_length. cbn [length]. f_equal. lia. }
  clearbody l r B. apply iperm_route in RI.
  assert (S1 : shows2 (iperm (l, r)) (split_IP B)).
  { pose proof (split_halves B) as [SH1 SH2]. destruct RI as [[R1 R2] [R3 R4]]. split; (split; [assumption|]); split; auto; intros i Hi; [rewrite R2 by exact Hi|rewrite R4 by exact Hi];
      rewrite nth_map_seq by exact Hi; unfold rot1; rewrite nth_map_seq by exact Hi; cbn [Nat.add split_IP fst snd];
      assert (M : (32 - i) mod 32 < 32) by (apply Nat.mod_upper_bound; lia); assert (LI : length IP = 64) by reflexivity.
    - rewrite <- (select_nth IP B) by lia. rewrite <- (firstn_skipn 32 (select IP B)) at 1. apply app_nth1. rewrite firstn_length, select_length. lia.
    - rewrite <- (select_nth IP B) by lia. rewrite <- (firstn_skipn 32 (select IP B)) at 1. rewrite app_nth2 by (rewrite firstn_length, select_length; lia).
      rewrite firstn_length, select_length. f_equal. lia. }
  apply H in S1. destruct (F (iperm (l, r))) as [l' r']. destruct (phi (split_IP B)) as [L' R']. destruct S1 as [[L1 P1] [L2 P2]]. cbn [fst snd] in *.
  assert (RF : routed2 (R' ++ L') (rot1 32) (rot1 0) (l', r')).
  { destruct P1 as [W1 P1], P2 as [W2 P2]. split; (split; [assumption|]); intros i Hi; cbn [fst snd]; [rewrite P1 by exact Hi|rewrite P2 by exact Hi];
      unfold rot1; rewrite !nth_map_seq by exact Hi; rewrite ?Nat.add_0_l; assert (M : (32 - i) mod 32 < 32) by (apply Nat.mod_upper_bound; lia).
    - rewrite app_nth2 by (rewrite L2; lia). f_equal. rewrite L2. lia.
    - rewrite app_nth1 by lia. reflexivity. }
  apply fperm_route in RF. destruct (fperm (l', r')) as [ol or]. destruct RF as [[W1 R1] [W2 R2]]. cbn [fst snd] in *.
  exists (put_block true 4 [or; ol] None). split; [reflexivity|].
  assert (E : put_block true 4 [or; ol] None = be_bytes 4 or ++ be_bytes 4 ol) by (unfold put_block; cbn [flat_map word_to]; rewrite app_nil_r; reflexivity).
  rewrite E. clear E.
  assert (BO : bytes (be_bytes 4 or) /\ bytes (be_bytes 4 ol)) by (split; apply be_bytes_bytes). destruct BO as [BO1 BO2].
  assert (LO : length (be_bytes 4 or) = 4 /\ length (be_bytes 4 ol) = 4) by (split; apply be_bytes_length). destruct LO as [LO1 LO2].
  split; [apply bytes_app; split; assumption|]. split; [rewrite app_length; lia|].
  unfold join_IP. cbn [fst snd]. rewrite bits_of_app.
  assert (LI : length IP_inverse = 64) by reflexivity.
  assert (VO : be_val (be_bytes 4 or) = or) by (apply be_val_be_bytes; exact W2). assert (VL : be_val (be_bytes 4 ol) = ol) by (apply be_val_be_bytes; exact W1).
  apply list_ext; [rewrite app_length, !bits_of_length, select_length; lia|]. rewrite app_length, !bits_of_length, LO1, LO2. intros p Hp.
  rewrite select_nth by lia. destruct (Nat.lt_ge_cases p 32) as [LT|GE].
  - rewrite app_nth1 by (rewrite bits_of_length; lia). rewrite <- be_val_bit by (auto; lia). rewrite VO, LO1.
    replace (8 * 4 - 1 - p) with (31 - p) by lia. rewrite R2 by lia. rewrite nth_map_seq by lia. replace (31 - (31 - p)) with p by lia. reflexivity.
  - rewrite app_nth2 by (rewrite bits_of_length; lia). rewrite bits_of_length, LO1. rewrite <- be_val_bit by (auto; lia). rewrite VL, LO2.
    replace (8 * 4 - 1 - (p - 8 * 4)) with (63 - p) by lia. rewrite R1 by lia. rewrite nth_map_seq by lia. replace (32 + (31 - (63 - p))) with p by lia. reflexivity.
Qed.

Lemma raw_ok : forall decrypt key, bytes key -> 8 <= length key ->
  forall s st, shows2 s st -> shows2 (raw_process (raw_set_key decrypt key) s) (fold_left iteration (keys decrypt key) st).
Proof. intros decrypt key HB HL s st HS. destruct (set_key_ok decrypt key HB HL) as [X Y]. apply raw_process_ok; assumption. Qed.
Lemma swap_ok : forall s st, shows2 s st -> shows2 (swap s) (flip st).
Proof. intros s st [H1 H2]. split; assumption. Qed.

Lemma des_computes : forall decrypt key, bytes key -> 8 <= length key -> computes (des decrypt key) (cipher (keys decrypt key)).
Proof.
  intros decrypt key HB HL b Hb L.
  destruct (frame_ok _ _ (raw_ok decrypt key HB HL) b Hb L) as (c & C1 & C2 & C3 & C4). exists c. repeat split; auto. rewrite C4, cipher_eq. reflexivity.
Qed.
Lemma three_computes : forall d1 k1 d2 k2 d3 k3, bytes k1 -> bytes k2 -> bytes k3 -> 8 <= length k1 -> 8 <= length k2 -> 8 <= length k3 ->
  computes (process true 4 2 (des_frame (fun s => raw_process (raw_set_key d3 k3) (swap (raw_process (raw_set_key d2 k2) (swap (raw_process (raw_set_key d1 k1) s)))))))
    (fun b => cipher (keys d3 k3) (cipher (keys d2 k2) (cipher (keys d1 k1) b))).
Proof.
  intros d1 k1 d2 k2 d3 k3 B1 B2 B3 L1 L2 L3 b Hb L.
  destruct (frame_ok (fun s => raw_process (raw_set_key d3 k3) (swap (raw_process (raw_set_key d2 k2) (swap (raw_process (raw_set_key d1 k1) s)))))
    (fun st => fold_left iteration (keys d3 k3) (flip (fold_left iteration (keys d2 k2) (flip (fold_left iteration (keys d1 k1) st))))))
    with (b := b) as (c & C1 & C2 & C3 & C4); auto.
  { intros s st HS. apply raw_ok; auto. apply swap_ok, raw_ok; auto. apply swap_ok, raw_ok; auto. }
  exists c. repeat split; auto. rewrite C4, !cipher_eq.
  rewrite split_join by (apply iterations_halves, split_halves). rewrite split_join; [reflexivity|].
  apply iterations_halves, split_halves.
Qed.

(** * Parity bits *)
Lemma keys_ignore_parity : forall k1 k2, 8 <= length k1 -> 8 <= length k2 ->
  (forall p, p < 64 -> p mod 8 <> 7 -> nth p (bits_of k1) false = nth p (bits_of k2) false) -> forall d, keys d k1 = keys d k2.
Proof.
  intros k1 k2 L1 L2 H d. unfold keys. cbv zeta. rewrite !bits_prefix by assumption. rewrite !KS_chosen.
  assert (E : map (key_of (fun p => nth p (bits_of k1) false)) (seq 0 16) = map (key_of (fun p => nth p (bits_of k2) false)) (seq 0 16)).
  { apply map_ext_in. intros i Hi. apply in_seq in Hi. unfold key_of. apply map_ext_in. intros j Hj. apply in_seq in Hj.
    destruct (pcr_bounds i j ltac:(lia) ltac:(lia)) as [_ B]. cbv zeta in B. destruct (pc1_bounds _ B) as [B1 B2]. apply H; assumption. }
  rewrite E. reflexivity.
Qed.
