(** The key schedule and the sixteen iterations of DES against FIPS 46-3. *)
From Coq Require Import ZArith List Bool Arith Lia.
From Verif Require Import Base CipherModel CipherSpec CipherProofs DesModel DesSpec DesProofs.
Import ListNotations.
Open Scope nat_scope.

(** * The key schedule *)
Lemma land_pow2 : forall x k, (0 <= k)%Z -> (Z.land x (2 ^ k) =? 0)%Z = negb (Z.testbit x k).
Proof.
  intros x k Hk. destruct (Z.testbit x k) eqn:E; cbn [negb].
  - apply Z.eqb_neq. intros X. apply (f_equal (fun v => Z.testbit v k)) in X. rewrite Z.land_spec, E, Z.pow2_bits_true, Z.bits_0 in X by lia. discriminate.
  - apply Z.eqb_eq, Z.bits_inj'. intros n Hn. rewrite Z.land_spec, Z.pow2_bits_eqb, Z.bits_0 by lia.
    destruct (k =? n)%Z eqn:EE; [apply Z.eqb_eq in EE; subst; rewrite E; reflexivity|apply andb_false_r].
Qed.
Lemma bytebit_pow : forall m, m < 8 -> nth m bytebit 0%Z = (2 ^ Z.of_nat (7 - m))%Z.
Proof. intros m H. do 8 (destruct m as [|m]; [reflexivity|]). lia. Qed.

Definition chosen (i j : nat) : nat :=
  let l := nth j pc2 0 - 1 + nth i totrot 0 in
  nth (if l <? (if nth j pc2 0 - 1 <? 28 then 28 else 56) then l else l - 28) pc1 0 - 1.
Definition key_of (h : nat -> bool) (i : nat) : list bool := map (fun j => h (chosen i j)) (seq 0 48).
Lemma KS_chosen : forall h : nat -> bool, KS (map h (seq 0 64)) = map (key_of h) (seq 0 16).
Proof. intros h. vm_compute. reflexivity. Qed.
Lemma pcr_bounds : forall i j, i < 16 -> j < 48 ->
  let l := nth j pc2 0 - 1 + nth i totrot 0 in
  nth j pc2 0 - 1 < 56 /\ (if l <? (if nth j pc2 0 - 1 <? 28 then 28 else 56) then l else l - 28) < 56.
Proof.
  assert (X : forallb (fun i => forallb (fun j => (nth j pc2 0 - 1 <? 56) && ((let l := nth j pc2 0 - 1 + nth i totrot 0 in if l <? (if nth j pc2 0 - 1 <? 28 then 28 else 56) then l else l - 28) <? 56)) (seq 0 48)) (seq 0 16) = true) by (vm_compute; reflexivity).
  intros i j Hi Hj. rewrite forallb_forall in X. specialize (X i ltac:(apply in_seq; lia)). rewrite forallb_forall in X. specialize (X j ltac:(apply in_seq; lia)).
  apply andb_prop in X as [X1 X2]. apply Nat.ltb_lt in X1, X2. split; assumption.
Qed.
Lemma pc1_bounds : forall p, p < 56 -> nth p pc1 0 - 1 < 64 /\ (nth p pc1 0 - 1) mod 8 <> 7.
Proof.
  assert (X : forallb (fun p => (nth p pc1 0 - 1 <? 64) && negb ((nth p pc1 0 - 1) mod 8 =? 7)) (seq 0 56) = true) by (vm_compute; reflexivity).
  intros p Hp. rewrite forallb_forall in X. specialize (X p ltac:(apply in_seq; lia)). apply andb_prop in X as [X1 X2]. apply Nat.ltb_lt in X1.
  apply negb_true_iff, Nat.eqb_neq in X2. split; assumption.
Qed.
Lemma pc1m_nth : forall key p, 8 <= length key -> p < 56 ->
  nth p (pc1m key) 0%Z = if nth (nth p pc1 0 - 1) (bits_of key) false then 1%Z else 0%Z.
Proof.
  intros key p HL Hp. destruct (pc1_bounds p Hp) as [PB _]. unfold pc1m.
  set (g := fun q : nat => let l := q - 1 in if Z.eqb (Z.land (nth (l / 8) key 0%Z) (nth (l mod 8) bytebit 0%Z)) 0 then 0%Z else 1%Z).
  rewrite (nth_indep _ 0%Z (g 0)) by (rewrite map_length; exact Hp). rewrite (map_nth g). unfold g. cbv zeta.
  rewrite bytebit_pow by (apply Nat.mod_upper_bound; lia). rewrite land_pow2 by lia. rewrite bits_of_nth by lia.
  destruct (Z.testbit _ _); reflexivity.
Qed.
Lemma pcr_chosen : forall key i j, 8 <= length key -> i < 16 -> j < 48 ->
  negb (Z.eqb (nth (nth j pc2 0 - 1) (pcr (pc1m key) i) 0%Z) 0) = nth (chosen i j) (bits_of key) false.
Proof.
  intros key i j HL Hi Hj. destruct (pcr_bounds i j Hi Hj) as [B1 B2]. cbv zeta in B2. unfold pcr. rewrite nth_map_seq by exact B1.
  cbv zeta. rewrite pc1m_nth by assumption. unfold chosen. cbv zeta. destruct (nth _ (bits_of key) false); reflexivity.
Qed.

Lemma ks_bits : forall r n, n <= 48 ->
  let s := fold_left (fun ks j => if Z.eqb (nth (nth j pc2 0 - 1) r 0%Z) 0 then ks
    else upd (j / 6) (Z.lor (nth (j / 6) ks 0%Z) (Z.shiftr (nth (j mod 6) bytebit 0%Z) 2)) ks) (seq 0 n) (repeat 0%Z 8) in
  length s = 8 /\ forall g t, g < 8 -> (Z.testbit (nth g s 0%Z) (Z.of_nat t) = true <-> (t < 6 /\ 6 * g + (5 - t) < n /\ negb (Z.eqb (nth (nth (6 * g + (5 - t)) pc2 0 - 1) r 0%Z) 0) = true)).
Proof.
  intros r. induction n as [|n IH]; intros Hn; cbv zeta.
  - split; [reflexivity|]. intros g t Hg. cbn [seq fold_left]. rewrite nth_repeat_lt by exact Hg. rewrite Z.bits_0. split; [discriminate|lia].
  - specialize (IH ltac:(lia)). cbv zeta in IH. rewrite seq_S, fold_left_app. cbn [fold_left Nat.add].
    set (s := fold_left _ (seq 0 n) (repeat 0%Z 8)) in *. destruct IH as [L H].
    assert (ND : n = 6 * (n / 6) + n mod 6) by (apply Nat.div_mod; lia). assert (NM : n mod 6 < 6) by (apply Nat.mod_upper_bound; lia).
    destruct (Z.eqb (nth (nth n pc2 0 - 1) r 0%Z) 0) eqn:E.
    + split; [exact L|]. intros g t Hg. rewrite (H g t Hg). split; [intros (H1 & H2 & H3); repeat split; auto; lia|].
      intros (H1 & H2 & H3). split; [exact H1|]. split; [|exact H3].
      destruct (Nat.eq_dec (6 * g + (5 - t)) n) as [EQ|NE]; [rewrite EQ, E in H3; discriminate|lia].
    + split; [rewrite upd_length; exact L|]. intros g t Hg.
      assert (SH : Z.shiftr (nth (n mod 6) bytebit 0%Z) 2 = (2 ^ Z.of_nat (5 - n mod 6))%Z) by (clear - NM; destruct (n mod 6) as [|[|[|[|[|[|]]]]]]; try reflexivity; lia).
      rewrite SH. destruct (Nat.eq_dec g (n / 6)) as [->|NE].
      * rewrite upd_nth_eq by lia. rewrite Z.lor_spec, Z.pow2_bits_eqb, orb_true_iff, (H (n / 6) t Hg) by lia. rewrite Z.eqb_eq.
        split.
        -- intros [(H1 & H2 & H3)|HT]; [repeat split; auto; lia|]. assert (TT : t = 5 - n mod 6) by lia. subst t.
           assert (EQ : 6 * (n / 6) + (5 - (5 - n mod 6)) = n) by lia. rewrite EQ, E. repeat split; lia.
        -- intros (H1 & H2 & H3). destruct (Nat.eq_dec (6 * (n / 6) + (5 - t)) n) as [EQ|NE]; [right; lia|left; repeat split; auto; lia].
      * rewrite upd_nth_neq by auto. rewrite (H g t Hg). split; [intros (H1 & H2 & H3); repeat split; auto; lia|].
        intros (H1 & H2 & H3). repeat split; auto. lia.
Qed.

Lemma ks_all : forall r, length (ks r) = 8 /\ forall g t, g < 8 ->
  (Z.testbit (nth g (ks r) 0%Z) (Z.of_nat t) = true <-> (t < 6 /\ 6 * g + (5 - t) < 48 /\ negb (Z.eqb (nth (nth (6 * g + (5 - t)) pc2 0 - 1) r 0%Z) 0) = true)).
Proof. intros r. unfold ks. apply (ks_bits r 48 (Nat.le_refl 48)). Qed.

Lemma four_bits_of : forall a b c d, (forall x, In x [a; b; c; d] -> (0 <= x < 64)%Z) ->
  word 32 (four a b c d) /\ forall h t, h < 4 -> t < 6 -> Z.testbit (four a b c d) (Z.of_nat (24 - 8 * h + t)) = Z.testbit (nth h [a; b; c; d] 0%Z) (Z.of_nat t).
Proof.
  intros a b c d H.
  assert (HI : forall x k, In x [a; b; c; d] -> (6 <= k)%Z -> Z.testbit x k = false).
  { intros x k Hx Hk. specialize (H x Hx). destruct (Z.eq_dec x 0) as [->|NZ]; [apply Z.bits_0|]. apply Z.bits_above_log2; [lia|]. apply Z.log2_lt_pow2; [lia|].
    assert (2 ^ 6 <= 2 ^ k)%Z by (apply Z.pow_le_mono_r; lia). change (2 ^ 6)%Z with 64%Z in *. lia. }
  assert (WS : forall x n, word 32 (wshl 32 x n)) by (intros; unfold wshl, word; apply Z.mod_pos_bound; reflexivity).
  split.
  - unfold four. repeat (apply lor_word; [lia| |]); try apply WS. specialize (H d ltac:(cbn; auto)). unfold word. lia.
  - assert (SB : forall x n k, (0 <= k < 32)%Z -> Z.testbit (wshl 32 x n) k = Z.testbit x (k - n)).
    { intros x n k Hk. unfold wshl. rewrite Z.mod_pow2_bits_low by lia. apply Z.shiftl_spec. lia. }
    intros h t Hh Ht. unfold four. rewrite !Z.lor_spec, !SB by lia.
    do 4 (destruct h as [|h]; [cbn [nth];
      repeat match goal with |- context [Z.testbit ?x ?k] =>
        first [ (assert (k < 0)%Z by lia; rewrite (Z.testbit_neg_r x k) by assumption)
              | (assert (6 <= k)%Z by lia; rewrite (HI x k) by (cbn; auto 6)) ] end;
      rewrite ?orb_false_l, ?orb_false_r; f_equal; lia|]). lia.
Qed.

Lemma round_key_ok : forall key i, bytes key -> 8 <= length key -> i < 16 ->
  key_shows (round_key key i) (key_of (fun p => nth p (bits_of key) false) i).
Proof.
  intros key i HB HL Hi. unfold round_key. cbv zeta. destruct (ks_all (pcr (pc1m key) i)) as [L H].
  set (s := ks (pcr (pc1m key) i)) in *.
  assert (B : forall g t, g < 8 -> t < 6 -> Z.testbit (nth g s 0%Z) (Z.of_nat t) = nth (6 * g + (5 - t)) (key_of (fun p => nth p (bits_of key) false) i) false).
  { intros g t Hg Ht. unfold key_of. rewrite nth_map_seq by lia. rewrite <- pcr_chosen by (auto; lia). apply eq_true_iff_eq. rewrite (H g t Hg).
    split; [intros (_ & _ & X); exact X|intros X; repeat split; auto; lia]. }
  assert (R : forall g, g < 8 -> (0 <= nth g s 0 < 64)%Z).
  { intros g Hg. assert (NN : (0 <= nth g s 0)%Z).
    { assert (FA : Forall (fun x => 0 <= x)%Z s).
      { unfold s, ks. assert (F0 : Forall (fun x => 0 <= x)%Z (repeat 0%Z 8)) by (repeat constructor; lia).
        generalize (seq 0 48) as js. intros js. revert F0. generalize (repeat 0%Z 8) as s0.
        induction js as [|j js IHj]; intros s0 F0; cbn [fold_left]; [exact F0|]. apply IHj.
        destruct (_ =? 0)%Z; [exact F0|]. apply upd_Forall; [exact F0|]. apply Z.lor_nonneg. split.
        - destruct (Nat.lt_ge_cases (j / 6) (length s0)); [rewrite Forall_forall in F0; apply F0, nth_In; assumption|rewrite nth_overflow by assumption; lia].
        - apply Z.shiftr_nonneg. destruct (Nat.lt_ge_cases (j mod 6) 8) as [X|X]; [rewrite bytebit_pow by exact X; apply Z.pow_nonneg; lia|rewrite nth_overflow by exact X; lia]. }
      rewrite Forall_forall in FA. apply FA, nth_In. lia. }
    split; [exact NN|]. destruct (Z_lt_ge_dec (nth g s 0%Z) 64) as [X|X]; [exact X|exfalso].
    assert (LG : (6 <= Z.log2 (nth g s 0))%Z) by (apply Z.log2_le_pow2; [lia|]; change (2 ^ 6)%Z with 64%Z; lia).
    assert (TB : Z.testbit (nth g s 0%Z) (Z.log2 (nth g s 0%Z)) = true) by (apply Z.bit_log2; lia).
    rewrite <- (Z2Nat.id (Z.log2 (nth g s 0%Z))) in TB at 1 by lia. apply H in TB; [lia|exact Hg]. }
  clearbody s. unfold key_shows. cbn [fst snd].
  destruct (four_bits_of (nth 0 s 0%Z) (nth 2 s 0%Z) (nth 4 s 0%Z) (nth 6 s 0%Z)) as [W1 T1].
  { intros x Hx. cbn [In] in Hx. destruct Hx as [<-|[<-|[<-|[<-|[]]]]]; apply R; lia. }
  destruct (four_bits_of (nth 1 s 0%Z) (nth 3 s 0%Z) (nth 5 s 0%Z) (nth 7 s 0%Z)) as [W2 T2].
  { intros x Hx. cbn [In] in Hx. destruct Hx as [<-|[<-|[<-|[<-|[]]]]]; apply R; lia. }
  split; [unfold key_of; rewrite map_length, seq_length; reflexivity|]. split; [exact W1|]. split; [exact W2|].
  intros h t Hh Ht. rewrite T1, T2 by assumption.
  do 4 (destruct h as [|h]; [cbn [nth]; split; rewrite B by lia; reflexivity|]). lia.
Qed.

Lemma reversed : forall F : nat -> Z * Z,
  fold_left (fun k i => upd i (nth (15 - i) k (0, 0)%Z) (upd (15 - i) (nth i k (0, 0)%Z) k)) (seq 0 8) (map F (seq 0 16)) = rev (map F (seq 0 16)).
Proof. intros F. reflexivity. Qed.
Lemma bits_prefix : forall key, 8 <= length key -> bits_of (firstn 8 key) = map (fun p => nth p (bits_of key) false) (seq 0 64).
Proof.
  intros key HL. apply list_ext; rewrite bits_of_length, firstn_length, ?map_length, ?seq_length; [lia|]. intros p Hp.
  rewrite nth_map_seq by lia. rewrite <- (firstn_skipn 8 key) at 2. rewrite bits_of_app, app_nth1; [reflexivity|rewrite bits_of_length, firstn_length; lia].
Qed.
Definition keys (decrypt : bool) (key : list Z) : list (list bool) :=
  let k := KS (bits_of (firstn 8 key)) in if decrypt then rev k else k.
Lemma F2_map : forall A B C (R : B -> C -> Prop) (F : A -> B) (G : A -> C) l, (forall x, In x l -> R (F x) (G x)) -> Forall2 R (map F l) (map G l).
Proof. intros A B C R F G l. induction l as [|x l IH]; intros H; cbn [map]; constructor; [apply H; left; reflexivity|apply IH; intros; apply H; right; assumption]. Qed.
Lemma F2_rev : forall A B (R : A -> B -> Prop) l m, Forall2 R l m -> Forall2 R (rev l) (rev m).
Proof. intros A B R l m H. induction H; cbn [rev]; [constructor|]. apply Forall2_app; [assumption|constructor; [assumption|constructor]]. Qed.
Lemma set_key_ok : forall decrypt key, bytes key -> 8 <= length key -> Forall2 key_shows (raw_set_key decrypt key) (keys decrypt key) /\ length (raw_set_key decrypt key) = 16.
Proof.
  intros decrypt key HB HL. unfold raw_set_key, keys. cbv zeta. rewrite bits_prefix by exact HL. rewrite KS_chosen. rewrite reversed.
  assert (X : Forall2 key_shows (map (round_key key) (seq 0 16)) (map (key_of (fun p => nth p (bits_of key) false)) (seq 0 16))).
  { apply F2_map. intros i Hi. apply in_seq in Hi. apply round_key_ok; auto. lia. }
  destruct decrypt; split; try (rewrite ?rev_length, map_length, seq_length; reflexivity); [apply F2_rev, X|exact X].
Qed.

(** * Sixteen iterations *)
Definition shows2 (s : Z * Z) (st : list bool * list bool) : Prop := shows (fst s) (fst st) /\ shows (snd s) (snd st).
Lemma two_rounds : forall l r k1 k2 st K1 K2, shows2 (l, r) st -> key_shows k1 K1 -> key_shows k2 K2 ->
  shows2 (half r k1 l, half (half r k1 l) k2 r) (iteration (iteration st K1) K2).
Proof.
  intros l r k1 k2 [L R] K1 K2 [H1 H2] HK1 HK2. cbn [fst snd] in *. unfold iteration. cbn [fst snd].
  assert (H3 : shows (half r k1 l) (xor_bits L (f R K1))) by (apply half_ok; assumption).
  split; cbn [fst snd]; [exact H3|]. apply half_ok; assumption.
Qed.
Lemma raw_process_ok : forall k K s st, Forall2 key_shows k K -> length k = 16 -> shows2 s st -> shows2 (raw_process k s) (fold_left iteration K st).
Proof.
  intros k K s st HK HL HS. unfold raw_process.
  assert (G : forall n pre Kp, Forall2 key_shows pre Kp -> length pre = 2 * n -> forall post, k = pre ++ post ->
     shows2 (fold_left (fun '(l, r) i => let l := half r (nth (2 * i) k (0, 0)%Z) l in let r := half l (nth (2 * i + 1) k (0, 0)%Z) r in (l, r)) (seq 0 n) s) (fold_left iteration Kp st)).
  { induction n as [|n IH]; intros pre Kp HF HN post HE.
    - destruct pre; [|discriminate]. inversion HF; subst. exact HS.
    - assert (FE : forall pre Kp, Forall2 key_shows pre Kp -> length pre = 2 * S n -> exists p k1 k2 P K1 K2, pre = p ++ [k1; k2] /\ Kp = P ++ [K1; K2] /\ Forall2 key_shows p P /\ key_shows k1 K1 /\ key_shows k2 K2) by shelve.
      destruct (FE pre Kp HF HN) as (p & k1 & k2 & P & K1 & K2 & -> & -> & F1 & F2 & F3).
      rewrite app_length in HN. cbn [length] in HN. rewrite seq_S, !fold_left_app. cbn [fold_left Nat.add].
      assert (I := IH p P F1 ltac:(lia) ([k1; k2] ++ post) ltac:(rewrite HE, <- app_assoc; reflexivity)).
      destruct (fold_left _ (seq 0 n) s) as [l r].
      assert (N1 : nth (2 * n) k (0, 0)%Z = k1) by (rewrite HE, <- app_assoc; rewrite app_nth2 by lia; replace (2 * n - length p) with 0 by lia; reflexivity).
      assert (N2 : nth (2 * n + 1) k (0, 0)%Z = k2) by (rewrite HE, <- app_assoc; rewrite app_nth2 by lia; replace (2 * n + 1 - length p) with 1 by lia; reflexivity).
      cbv zeta. rewrite N1, N2. apply two_rounds; assumption. }
  apply (G 8 k K HK ltac:(lia) []). symmetry. apply app_nil_r.
  Unshelve.
  clear. intros pre Kp HF HN. destruct (exists_last (l := pre)) as (p1 & k2 & ->); [destruct pre; [discriminate|discriminate]|].
  apply Forall2_app_inv_l in HF as (P1 & PK2 & F1 & F2 & ->). rewrite app_length in HN. cbn [length] in HN.
  destruct (exists_last (l := p1)) as (p & k1 & ->); [destruct p1; [cbn in HN; lia|discriminate]|].
  apply Forall2_app_inv_l in F1 as (P & PK1 & F0 & F1 & ->). inversion F2 as [|? K2 ? ? X2 Y2]; subst. inversion Y2; subst. inversion F1 as [|? K1 ? ? X1 Y1]; subst. inversion Y1; subst.
  exists p, k1, k2, P, K1, K2. rewrite <- !app_assoc. auto.
Qed.
