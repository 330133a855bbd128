(** DeflateMatch: the symbols for a pair, and the search for one. *)
From Coq Require Import ZArith List Bool Arith Lia.
From Verif Require Import Base BitioModel HuffmanModel WindowSpec InflateSpec DeflateModel DeflateBlock.
Import ListNotations.
Open Scope nat_scope.

(** * The symbols for a pair *)

Definition length_check (len : nat) : bool :=
  let lc := nth (len - 3) length_codes 0 in
  let e := (len - nth (lc - 257) length_bases 0) mod 32 in
  match length_code (lc mod 512) with
  | Some (ls, le) => (ls + e =? len) && (e <? 2 ^ le) && (256 <? lc mod 512) && (lc mod 512 <? 286)
  | None => false
  end.

Lemma length_checks : forallb length_check (seq 3 256) = true.
Proof. vm_compute. reflexivity. Qed.

Lemma length_token : forall d len, 3 <= len <= 258 ->
  let t := match_token d len in
  exists ls le, length_code (t_lit t) = Some (ls, le) /\ ls + t_lextra t = len /\ t_lextra t < 2 ^ le
    /\ 256 < t_lit t < 286.
Proof.
  intros d len H t.
  assert (C : length_check len = true).
  { apply (proj1 (forallb_forall length_check (seq 3 256)) length_checks). apply in_seq. lia. }
  unfold length_check in C. cbv zeta in C. unfold t, match_token. cbv zeta. cbn [t_lit t_lextra].
  destruct (length_code _) as [[ls le]|]; [|discriminate]. exists ls, le.
  rewrite !andb_true_iff in C. destruct C as [[[C1 C2] C3] C4].
  apply Nat.eqb_eq in C1. apply Nat.ltb_lt in C2, C3, C4. repeat split; assumption.
Qed.

Lemma filter_count : forall d b l,
  length (filter (fun b => (b <=? d)%Z) (b :: l)) = (if (b <=? d)%Z then 1 else 0) + length (filter (fun b => (b <=? d)%Z) l).
Proof. intros d b l. cbn [filter]. destruct (b <=? d)%Z; reflexivity. Qed.

Lemma distance_token : forall d len, (1 <= d <= 32768)%Z ->
  let t := match_token d len in
  exists ds de, distance_code (t_dist t) = Some (ds, de) /\ (ds + Z.of_nat (t_dextra t) = d)%Z /\ t_dextra t < 2 ^ de
    /\ t_dist t < 30 /\ (1 <= ds)%Z.
Proof.
  intros d len H t.
  assert (B : exists ds de, distance_code (upper_bound_distance d - 1) = Some (ds, de)
    /\ nth (upper_bound_distance d - 1) distance_bases 0%Z = ds
    /\ (ds <= d)%Z /\ (d - ds < 2 ^ Z.of_nat de)%Z /\ de <= 13 /\ upper_bound_distance d - 1 < 30 /\ (1 <= ds)%Z).
  { assert (U : exists i, i < 30 /\ upper_bound_distance d = S i /\ (nth i distance_bases 0 <= d)%Z
        /\ (i < 29 -> (d < nth (S i) distance_bases 0)%Z)).
    { unfold upper_bound_distance, distance_bases at 1. rewrite !filter_count.
      repeat match goal with |- context [(?b <=? d)%Z] => destruct (Z.leb_spec b d); try (exfalso; lia) end;
        cbn [filter length Nat.add];
        match goal with |- exists i, _ /\ S ?k = S i /\ _ => exists k end;
        (split; [lia|split; [reflexivity|split; [cbn; lia|intros _; cbn; lia]]]) ||
        (split; [lia|split; [reflexivity|split; [cbn; lia|intros; exfalso; lia]]]). }
    destruct U as (i & U1 & -> & U2 & U3). rewrite Nat.sub_succ, Nat.sub_0_r.
    do 30 (destruct i as [|i]; [eexists; eexists; split; [reflexivity|]; split; [reflexivity|];
       cbn in U2, U3; cbn -[Z.sub Z.le Z.lt]; lia|]). lia. }
  destruct B as (ds & de & B1 & B2 & B3 & B4 & B5 & B6 & B7). exists ds, de.
  unfold t, match_token. cbv zeta. cbn [t_dist t_dextra]. rewrite B2.
  rewrite (Nat.mod_small (upper_bound_distance d - 1) 32) by lia.
  assert (P : (2 ^ Z.of_nat de <= 2 ^ 13)%Z) by (apply Z.pow_le_mono_r; lia). change (2 ^ 13)%Z with 8192%Z in P.
  rewrite Z.mod_small by lia.
  split; [exact B1|]. split; [lia|]. split; [|split; [exact B6|exact B7]].
  apply Nat2Z.inj_lt. rewrite Z2Nat.id, Nat2Z.inj_pow by lia. exact B4.
Qed.

(** * The hash *)

Definition byte (x : Z) : Prop := (0 <= x < 256)%Z.

Lemma byte_high : forall x k, byte x -> (8 <= k)%Z -> Z.testbit x k = false.
Proof.
  intros x k [H1 H2] Hk. destruct (Z.eq_dec x 0) as [->|N]; [apply Z.testbit_0_l|].
  apply Z.bits_above_log2; [lia|]. assert (Z.log2 x < 8)%Z by (apply Z.log2_lt_pow2; cbn; lia). lia.
Qed.

Lemma hash_mask : forall k v, (0 <= k)%Z -> Z.land v (2 ^ k - 1) = (v mod 2 ^ k)%Z.
Proof. intros k v Hk. rewrite <- Z.land_ones by exact Hk. rewrite Z.ones_equiv, Z.sub_1_r. reflexivity. Qed.

Lemma hash3_range : forall k a b c, hash3 (2 ^ k) a b c < 2 ^ k.
Proof.
  intros k a b c. unfold hash3. rewrite Nat2Z.inj_pow. change (Z.of_nat 2) with 2%Z.
  rewrite hash_mask by lia. pose proof (Z.mod_pos_bound (Z.lxor (Z.lxor (Z.shiftl a 10) (Z.shiftl b 5)) c) (2 ^ Z.of_nat k) ltac:(lia)).
  apply Nat2Z.inj_lt. rewrite Z2Nat.id by lia. rewrite Nat2Z.inj_pow. lia.
Qed.

Lemma hash3_third : forall k a b c c', 9 <= k -> byte c -> byte c' ->
  hash3 (2 ^ k) a b c = hash3 (2 ^ k) a b c' -> c = c'.
Proof.
  intros k a b c c' Hk HC HC' H. unfold hash3 in H. rewrite Nat2Z.inj_pow in H. change (Z.of_nat 2) with 2%Z in H.
  rewrite !hash_mask in H by lia.
  apply Z2Nat.inj in H; [|apply Z.mod_pos_bound; lia|apply Z.mod_pos_bound; lia].
  apply Z.bits_inj'. intros n Hn. destruct (Z.lt_ge_cases n 8) as [L|L].
  - apply (f_equal (fun v => Z.testbit v n)) in H. rewrite !Z.mod_pow2_bits_low in H by lia.
    rewrite !Z.lxor_spec in H. destruct (xorb _ (Z.testbit (Z.shiftl b 5) n)); destruct (Z.testbit c n), (Z.testbit c' n); cbn in H; congruence.
  - rewrite !byte_high by (assumption || lia). reflexivity.
Qed.

(** * The search *)

Lemma mismatch_ok : forall n buf a b k, k <= mismatch n buf a b k <= k + n /\
  forall j, k <= j < mismatch n buf a b k -> nth (a + j) buf 0%Z = nth (b + j) buf 0%Z.
Proof.
  induction n as [|n IH]; intros buf a b k; cbn [mismatch]; [split; [lia|intros; lia]|].
  destruct (Z.eqb_spec (nth (a + k) buf 0%Z) (nth (b + k) buf 0%Z)) as [Q|Q]; [|split; [lia|intros; lia]].
  destruct (IH buf a b (S k)) as [I1 I2]. split; [lia|]. intros j Hj. destruct (Nat.eq_dec j k) as [->|N]; [exact Q|].
  apply I2. lia.
Qed.

(** The chains of m_head and m_prev: [dict] positions are in them. *)
Record chains (D : nat) (buf : list Z) (head prev : list nat) (dict : nat) : Prop := mkchains
  { ch_head : forall h, h < D -> nth h head 0 = 0 \/ (nth h head 0 < dict /\ compute_hash D buf (nth h head 0) = h);
    ch_prev : forall p, 0 < p < dict -> dict <= p + D ->
      nth (p mod D) prev 0 = 0
      \/ (nth (p mod D) prev 0 < p /\ compute_hash D buf (nth (p mod D) prev 0) = compute_hash D buf p) }.

(** A pair that is right: [len] bytes at [start] are those at [pos]. *)
Definition agree (buf : list Z) (start pos len : nat) : Prop :=
  forall j, j < len -> nth (start + j) buf 0%Z = nth (pos + j) buf 0%Z.

Lemma longest_loop_ok : forall k buf head prev dict start maxlen limit,
  9 <= k -> let D := 2 ^ k in chains D buf head prev dict -> dict <= start -> start <= limit + (D - 258) ->
  3 <= maxlen -> (forall j, j <= start + 2 -> byte (nth j buf 0%Z)) ->
  forall fuel current chain best pos,
  (current = 0 \/ (current < dict /\ compute_hash D buf current = compute_hash D buf start)) ->
  (pos = 0 \/ (limit < pos < start /\ 3 <= best <= maxlen /\ agree buf start pos best)) -> 2 <= best ->
  let '(l, p) := longest_loop fuel D buf prev start maxlen limit current chain best pos in
  best <= l /\ (p = 0 \/ (limit < p < start /\ 3 <= l <= maxlen /\ agree buf start p l)).
Proof.
  intros k buf head prev dict start maxlen limit Hk D HC Hd Hs Hm HB.
  induction fuel as [|fuel IH]; intros current chain best pos HCu HP Hb; cbn [longest_loop]; [split; [lia|exact HP]|].
  destruct (Nat.ltb_spec limit current) as [L|L]; cbn [negb]; [|split; [lia|exact HP]].
  destruct HCu as [->|[C1 C2]]; [lia|].
  set (ch := ((chain - 1) mod 2 ^ 32)%Z). clearbody ch.
  destruct (Z.leb_spec ch 0); [split; [lia|exact HP]|].
  assert (HN : nth (current mod D) prev 0 = 0 \/
    (nth (current mod D) prev 0 < dict /\ compute_hash D buf (nth (current mod D) prev 0) = compute_hash D buf start)).
  { destruct (ch_prev _ _ _ _ _ HC current) as [Z|[Z1 Z2]]; [lia|lia|left; exact Z|right; split; [lia|congruence]]. }
  destruct (_ && _ && _ && _)%bool eqn:T; [|apply IH; assumption].
  rewrite !andb_true_iff in T. destruct T as [[[_ _] T1] T2]. apply Z.eqb_eq in T1, T2.
  destruct (mismatch_ok (maxlen - 3) buf start current 3) as [M1 M2].
  set (len := mismatch (maxlen - 3) buf start current 3) in *. clearbody len.
  destruct (Nat.ltb_spec best len) as [LL|LL]; [|apply IH; assumption].
  assert (AG : agree buf start current len).
  { intros j Hj. destruct j as [|[|[|j]]]; [exact T1|exact T2| |apply M2; lia].
    unfold compute_hash in C2. rewrite Nat.add_0_r in *. rewrite !Nat.add_0_r in T1. rewrite T1, T2 in C2.
    symmetry. eapply hash3_third; [exact Hk| | |exact C2]; apply HB; lia. }
  assert (P2 : limit < current < start /\ 3 <= len <= maxlen /\ agree buf start current len) by (split; [lia|split; [lia|exact AG]]).
  destruct (len =? maxlen); [split; [lia|right; exact P2]|].
  specialize (IH (nth (current mod D) prev 0) ch len current HN (or_intror P2) ltac:(lia)).
  destruct (longest_loop _ _ _ _ _ _ _ _ _ _ _) as [l p]. split; [lia|]. apply IH.
Qed.

Lemma longest_match_ok : forall k s plen,
  9 <= k -> let D := 2 ^ k in chains D (d_buf s) (d_head s) (d_prev s) (d_dict s) -> d_dict s <= d_start s ->
  (forall j, j < d_start s + d_look s -> byte (nth j (d_buf s) 0%Z)) ->
  let '(l, p) := longest_match D s plen in
  l = 0 \/ (0 < p < d_start s /\ d_start s < p + (D - 258) /\ 3 <= l <= 258 /\ l <= d_look s /\ plen <= l
            /\ agree (d_buf s) (d_start s) p l).
Proof.
  intros k s plen Hk D HC Hd HB. unfold longest_match.
  destruct (Nat.leb_spec (d_look s) (Nat.max plen 2)); [left; reflexivity|].
  set (limit := if D - 258 <? d_start s then d_start s - (D - 258) else 0).
  set (hsh := compute_hash D (d_buf s) (d_start s)).
  assert (HD : hsh < D) by apply hash3_range.
  set (ch := if d_good s <=? plen then _ else _). clearbody ch.
  pose proof (longest_loop_ok k (d_buf s) (d_head s) (d_prev s) (d_dict s) (d_start s) (Nat.min 258 (d_look s)) limit Hk HC Hd) as Q.
  fold D in Q.
  assert (HL : d_start s <= limit + (D - 258)) by (unfold limit; destruct (Nat.ltb_spec (D - 258) (d_start s)); lia).
  specialize (Q HL ltac:(lia)).
  assert (HB2 : forall j, j <= d_start s + 2 -> byte (nth j (d_buf s) 0%Z)) by (intros j Hj; apply HB; lia).
  specialize (Q HB2 (S (nth hsh (d_head s) 0)) (nth hsh (d_head s) 0) ch (Nat.max plen 2) 0
                (ch_head _ _ _ _ _ HC hsh HD) (or_introl eq_refl) ltac:(lia)).
  destruct (longest_loop _ _ _ _ _ _ _ _ _ _ _) as [l p]. destruct Q as [Q1 Q2].
  destruct (Nat.ltb_spec 0 p); [|left; reflexivity].
  destruct Q2 as [->|[[Q2 Q3] [Q4 Q5]]]; [lia|].
  right. split; [lia|]. split; [lia|]. split; [lia|]. split; [lia|]. split; [lia|exact Q5].
Qed.

(** * Inserting positions *)
Lemma hash_range : forall k buf p, compute_hash (2 ^ k) buf p < 2 ^ k.
Proof. intros. apply hash3_range. Qed.

Lemma chains_insert : forall k s, let D := 2 ^ k in
  length (d_head s) = D -> length (d_prev s) = D -> chains D (d_buf s) (d_head s) (d_prev s) (d_dict s) ->
  let s' := insert_string D s in chains D (d_buf s') (d_head s') (d_prev s') (d_dict s').
Proof.
  intros k s D HL PL [H1 H2] s'. unfold s', insert_string. cbn [d_buf d_head d_prev d_dict].
  set (p := d_dict s) in *. set (h := compute_hash D (d_buf s) p) in *.
  assert (Hh : h < D) by apply hash_range. assert (D0 : D <> 0) by (unfold D; apply Nat.pow_nonzero; lia).
  constructor.
  - intros x Hx. destruct (Nat.eq_dec h x) as [<-|N].
    + right. rewrite upd_nth_eq by lia. split; [lia|reflexivity].
    + rewrite upd_nth_neq by exact N. destruct (H1 x Hx) as [Z|[Z1 Z2]]; [left; exact Z|right; split; [lia|exact Z2]].
  - intros q Hq Hq2. destruct (Nat.eq_dec q p) as [->|N].
    + rewrite upd_nth_eq by (rewrite PL; apply Nat.mod_upper_bound; exact D0).
      destruct (H1 h Hh) as [Z|[Z1 Z2]]; [left; exact Z|right; split; [exact Z1|exact Z2]].
    + assert (p mod D <> q mod D).
      { intros E. pose proof (Nat.div_mod p D D0). pose proof (Nat.div_mod q D D0).
        pose proof (Nat.mod_upper_bound p D D0).
        assert (p / D = q / D \/ p / D <= q / D - 1 \/ q / D + 1 <= p / D) as [C|[C|C]] by lia.
        - rewrite C in *. lia.
        - destruct (Nat.eq_dec (q / D) 0); [nia|]. nia.
        - nia. }
      rewrite upd_nth_neq by assumption. apply H2; lia.
Qed.
