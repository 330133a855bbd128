(** DeflateProofs: the invariant of Deflator. *)
From Coq Require Import ZArith List Bool Arith Lia.
From Verif Require Import Base BitioModel BitioSpec BitioStream HuffmanModel WindowSpec InflateSpec InflateBits InflateProofs.
From Verif Require Import DeflateModel DeflateSpec DeflateTree DeflateHeader DeflateBlock DeflateMatch.
Import ListNotations.
Open Scope nat_scope.

(** * Lists *)
Lemma nth_ext2 : forall (a b : list Z), length a = length b -> (forall i, i < length a -> nth i a 0%Z = nth i b 0%Z) -> a = b.
Proof. intros a b HL HN. apply (nth_ext a b 0%Z 0%Z HL HN). Qed.

Lemma firstn_add : forall (l : list Z) a b, firstn (a + b) l = firstn a l ++ firstn b (skipn a l).
Proof.
  induction l as [|x l IH]; intros a b; [rewrite skipn_nil, !firstn_nil; reflexivity|].
  destruct a as [|a]; [reflexivity|]. cbn. rewrite IH. reflexivity.
Qed.

Lemma nth_firstn_lt : forall (l : list Z) n i, i < n -> nth i (firstn n l) 0%Z = nth i l 0%Z.
Proof.
  induction l as [|x l IH]; intros n i H; [rewrite firstn_nil; reflexivity|].
  destruct n; [lia|]. destruct i; [reflexivity|]. cbn. apply IH. lia.
Qed.

(** A copy of [n] bytes that are those [d] before. *)
Lemma lz_copy_eq : forall n d a (X : list Z), 1 <= d <= a -> a + n <= length X ->
  (forall j, j < n -> nth (a + j) X 0%Z = nth (a + j - d) X 0%Z) -> lz_copy n d (firstn a X) = firstn (a + n) X.
Proof.
  induction n as [|n IH]; intros d a X HD HL HX; cbn [lz_copy]; [rewrite Nat.add_0_r; reflexivity|].
  rewrite firstn_length_le by lia. rewrite nth_firstn_lt by lia.
  replace (firstn a X ++ [nth (a - d) X 0%Z]) with (firstn (a + 1) X).
  - rewrite IH; [f_equal; lia|lia|lia|]. intros j Hj. replace (a + 1 + j) with (a + S j) by lia. apply HX. lia.
  - rewrite firstn_add. f_equal. specialize (HX 0 ltac:(lia)). rewrite Nat.add_0_r in HX. rewrite <- HX.
    apply nth_ext2; rewrite firstn_length_le by (rewrite skipn_length; lia); [reflexivity|].
    intros i Hi. assert (i = 0) by lia. subst i. rewrite nth_firstn_lt by lia. rewrite nth_skipn_add, Nat.add_0_r. reflexivity.
Qed.

(** * The invariant *)

Section Invariant.
Variables (k W : nat).
Hypothesis (Hk : 9 <= k <= 15).
Let D := 2 ^ k.
Let M := D / 2.
Hypothesis (HW : D <= W).

Lemma D_range : 512 <= D /\ (Z.of_nat D <= 32768)%Z.
Proof.
  unfold D. split.
  - change 512 with (2 ^ 9). apply Nat.pow_le_mono_r; lia.
  - rewrite Nat2Z.inj_pow. change 32768%Z with (2 ^ 15)%Z. apply Z.pow_le_mono_r; lia.
Qed.

Lemma max_block_eq : max_block D <= 2 * D /\ 2 * D <= max_block D + 1 /\ (Z.of_nat (max_block D) <= 65535)%Z.
Proof. pose proof D_range. unfold max_block. rewrite Nat2Z.inj_min, Z2Nat.id by lia. lia. Qed.

(** [X] is all of the input, [B] how much of it has left m_byteBuffer. *)
Record good (X : list Z) (B : nat) (s : deflator) : Prop := mkgood
  { g_bytes : bytes X;
    g_len : length (d_buf s) = 2 * D;
    g_end : d_start s + d_look s <= max_block D;
    g_X : length X = B + d_start s + d_look s;
    g_eq : forall p, p < d_start s + d_look s -> nth p (d_buf s) 0%Z = nth (B + p) X 0%Z;
    g_blk : d_start s = d_bstart s + d_blen s + (if d_avail s then 1 else 0);
    g_head : length (d_head s) = D;
    g_prev : length (d_prev s) = D;
    g_dict : d_dict s <= d_start s /\ (d_dict s = 0 \/ d_dict s + 2 <= d_start s + d_look s);
    g_chains : chains D (d_buf s) (d_head s) (d_prev s) (d_dict s);
    g_avail : d_avail s = true ->
      3 <= d_plen s <= 258 /\ d_plen s <= d_look s + 1 /\
      exists d, 1 <= d <= D /\ d <= B + (d_start s - 1)
        /\ ((Z.of_nat (d_start s) - 1 - d_pmatch s) mod 2 ^ 32 = Z.of_nat d)%Z
        /\ forall j, j < d_plen s -> nth (B + (d_start s - 1) + j) X 0%Z = nth (B + (d_start s - 1) + j - d) X 0%Z;
    g_w : written W (d_w s) (firstn (B + d_bstart s) X) }.

Definition pend (X : list Z) (B : nat) (s : deflator) : Prop :=
  pending W (firstn (B + d_bstart s) X) (firstn (d_blen s) (skipn (B + d_bstart s) X)) (d_toks s) (d_lits s) (d_dists s).

Definition ready (X : list Z) (B : nat) (s : deflator) : Prop := pend X B s \/ (d_level s = 0 /\ 0 < d_blen s).

Lemma block_data_eq : forall X B s, good X B s -> block_data s = firstn (d_blen s) (skipn (B + d_bstart s) X).
Proof.
  intros X B s G. destruct G as [G1 G2 G3 G4 G5 G6 G7 G8 G9 G10 G11 G12]. unfold block_data.
  pose proof max_block_eq. destruct (d_avail s);
  (apply nth_ext2; rewrite !firstn_length_le by (rewrite skipn_length; lia); [reflexivity|];
   intros i Hi; rewrite !nth_firstn_lt by lia; rewrite !nth_skipn_add; rewrite G5 by lia; f_equal; lia).
Qed.

Lemma pending_nil : forall h, pending W h [] [] (repeat 0%Z 286) (repeat 0%Z 30).
Proof.
  intros h. constructor; cbn [expands].
  - rewrite app_nil_r. reflexivity.
  - apply repeat_length.
  - apply repeat_length.
  - apply Forall_forall. intros x Hx. apply repeat_spec in Hx. lia.
  - apply Forall_forall. intros x Hx. apply repeat_spec in Hx. lia.
  - intros _ j _. destruct (Nat.lt_ge_cases j 286); [rewrite nth_repeat_lt by lia; lia|].
    rewrite nth_overflow by (rewrite repeat_length; lia). lia.
  - constructor.
Qed.

(** What stays the same. *)
Definition same_input (s s' : deflator) : Prop :=
  d_start s' = d_start s /\ d_look s' = d_look s /\ d_min s' = d_min s /\ d_avail s' = d_avail s
  /\ d_plen s' = d_plen s /\ d_pmatch s' = d_pmatch s /\ d_buf s' = d_buf s /\ d_head s' = d_head s
  /\ d_prev s' = d_prev s /\ d_dict s' = d_dict s.

Lemma block_done_good : forall X B s level skip count w, good X B s ->
  written W w (firstn (B + d_bstart s) X ++ firstn (d_blen s) (skipn (B + d_bstart s) X)) ->
  good X B (block_done s level skip count w) /\ pend X B (block_done s level skip count w).
Proof.
  intros X B s level skip count w G HWr. rewrite <- firstn_add in HWr.
  destruct G as [G1 G2 G3 G4 G5 G6 G7 G8 G9 G10 G11 G12]. split.
  - constructor; cbn [block_done d_buf d_start d_look d_bstart d_blen d_avail d_head d_prev d_dict d_plen d_pmatch d_w]; try assumption.
    + destruct (d_avail s); lia.
    + rewrite Nat.add_assoc. exact HWr.
  - unfold pend. cbn [block_done d_bstart d_blen d_toks d_lits d_dists]. cbn [firstn]. apply pending_nil.
Qed.

Lemma end_block_ok : forall X B s, good X B s -> ready X B s ->
  exists s', end_block false s = Some s' /\ good X B s' /\ pend X B s' /\ same_input s s' /\ d_blen s' = 0.
Proof.
  intros X B s G HR. unfold end_block.
  destruct (Nat.eqb_spec (d_blen s) 0) as [Z|Z]; cbn [andb negb].
  { exists s. split; [reflexivity|]. split; [exact G|]. split; [destruct HR as [P|[_ P]]; [exact P|lia]|].
    split; [repeat split|exact Z]. }
  pose proof (block_data_eq X B s G) as BD. rewrite BD.
  set (data := firstn (d_blen s) (skipn (B + d_bstart s) X)) in *.
  assert (HB : bytes data) by (apply Forall_firstn, Forall_skipn, (g_bytes _ _ _ G)).
  assert (HL : (Z.of_nat (length data) < 65536)%Z).
  { unfold data. pose proof (firstn_le_length (d_blen s) (skipn (B + d_bstart s) X)).
    pose proof max_block_eq. pose proof (g_end _ _ _ G). pose proof (g_blk _ _ _ G). destruct (d_avail s); lia. }
  set (h := firstn (B + d_bstart s) X) in *.
  pose proof (g_w _ _ _ G) as GW. fold h in GW.
  assert (E : forall kd, (kd <> STORED -> pending W h data (d_toks s) (d_lits s) (d_dists s)) ->
    exists w', encode_block (d_w s) false kd data (d_toks s) (d_lits s) (d_dists s) = Some w' /\ written W w' (h ++ data)).
  { intros kd HP. destruct (encode_block_ok W (d_w s) false kd h data (d_toks s) (d_lits s) (d_dists s) (proj1 GW) HB HL HP) as [w' [E1 E2]].
    exists w'. split; [exact E1|]. eapply written_more; eassumption. }
  assert (R : forall level skip count w, written W w (h ++ data) ->
    let s' := block_done s level skip count w in good X B s' /\ pend X B s' /\ same_input s s' /\ d_blen s' = 0).
  { intros level skip count w HWr. destruct (block_done_good X B s level skip count w G HWr) as [A1 A2].
    split; [exact A1|]. split; [exact A2|]. split; [repeat split|reflexivity]. }
  destruct (E STORED ltac:(congruence)) as [w0 [E0 E1]].
  destruct (Nat.eqb_spec (d_level s) 0) as [LV|LV].
  - rewrite E0. destruct (0 <? d_comp s); [destruct (S (d_count s) =? d_skip s)|];
      (eexists; split; [reflexivity|apply R; exact E1]).
  - destruct HR as [HP|[? _]]; [|contradiction]. unfold pend in HP. fold h data in HP.
    destruct (E STATIC (fun _ => HP)) as [w1 [E2 E3]]. destruct (E DYNAMIC (fun _ => HP)) as [w2 [E4 E5]].
    pose proof (encode_block_any _ (counting (d_w s)) _ _ _ _ _ _ _ E2) as N1.
    pose proof (encode_block_any _ (counting (d_w s)) _ _ _ _ _ _ _ E4) as N2.
    destruct (encode_block (counting (d_w s)) false STATIC data (d_toks s) (d_lits s) (d_dists s)) as [ws|]; [|congruence].
    destruct (encode_block (counting (d_w s)) false DYNAMIC data (d_toks s) (d_lits s) (d_dists s)) as [wd|]; [|congruence].
    destruct ((d_blen s <? 128) && (d_level s <? 8)).
    + destruct (_ && _)%bool.
      * rewrite E0. destruct (0 <? d_comp s); (eexists; split; [reflexivity|apply R; exact E1]).
      * destruct (_ <=? _)%Z; [rewrite E2|rewrite E4]; (eexists; split; [reflexivity|apply R; assumption]).
    + destruct (_ && _)%bool.
      * rewrite E0. destruct (0 <? d_comp s); (eexists; split; [reflexivity|apply R; exact E1]).
      * destruct (_ <=? _)%Z; [rewrite E2|rewrite E4]; (eexists; split; [reflexivity|apply R; assumption]).
Qed.

(** The last block. *)
Lemma end_block_last : forall X B s rest, good X B s -> ready X B s -> d_look s = 0 -> d_avail s = false ->
  exists s', end_block true s = Some s' /\ wok (d_w s') /\ bytes (w_sent (flush_bits (d_w s')))
    /\ deflated true W (w_sent (flush_bits (d_w s')) ++ rest) X rest.
Proof.
  intros X B s rest G HR HLk HA. unfold end_block. rewrite andb_false_r.
  pose proof (block_data_eq X B s G) as BD. rewrite BD.
  set (data := firstn (d_blen s) (skipn (B + d_bstart s) X)) in *.
  assert (HB : bytes data) by (apply Forall_firstn, Forall_skipn, (g_bytes _ _ _ G)).
  assert (HL : (Z.of_nat (length data) < 65536)%Z).
  { unfold data. pose proof (firstn_le_length (d_blen s) (skipn (B + d_bstart s) X)).
    pose proof max_block_eq. pose proof (g_end _ _ _ G). pose proof (g_blk _ _ _ G). destruct (d_avail s); lia. }
  set (h := firstn (B + d_bstart s) X) in *.
  pose proof (g_w _ _ _ G) as GW. fold h in GW.
  assert (XD : h ++ data = X).
  { unfold h, data. rewrite <- firstn_add. apply firstn_all2. pose proof (g_X _ _ _ G). pose proof (g_blk _ _ _ G).
    rewrite HA in *. lia. }
  assert (E : forall kd, (kd <> STORED -> pending W h data (d_toks s) (d_lits s) (d_dists s)) ->
    exists w', encode_block (d_w s) true kd data (d_toks s) (d_lits s) (d_dists s) = Some w'
      /\ wok w' /\ bytes (w_sent (flush_bits w')) /\ deflated true W (w_sent (flush_bits w') ++ rest) X rest).
  { intros kd HP. destruct (encode_block_ok W (d_w s) true kd h data (d_toks s) (d_lits s) (d_dists s) (proj1 GW) HB HL HP) as [w' [E1 E2]].
    exists w'. split; [exact E1|]. split; [destruct E2 as (bits & [K _] & _); exact K|]. pose proof (written_last W _ _ _ _ rest GW E2) as Q. rewrite XD in Q. exact Q. }
  destruct (E STORED ltac:(congruence)) as [w0 [E0 E1]].
  destruct (Nat.eqb_spec (d_level s) 0) as [LV|LV].
  - rewrite E0. destruct (0 <? d_comp s); [destruct (S (d_count s) =? d_skip s)|];
      (eexists; split; [reflexivity|exact E1]).
  - destruct HR as [HP|[? _]]; [|contradiction]. unfold pend in HP. fold h data in HP.
    destruct (E STATIC (fun _ => HP)) as [w1 [E2 E3]]. destruct (E DYNAMIC (fun _ => HP)) as [w2 [E4 E5]].
    pose proof (encode_block_any _ (counting (d_w s)) _ _ _ _ _ _ _ E2) as N1.
    pose proof (encode_block_any _ (counting (d_w s)) _ _ _ _ _ _ _ E4) as N2.
    destruct (encode_block (counting (d_w s)) true STATIC data (d_toks s) (d_lits s) (d_dists s)) as [ws|]; [|congruence].
    destruct (encode_block (counting (d_w s)) true DYNAMIC data (d_toks s) (d_lits s) (d_dists s)) as [wd|]; [|congruence].
    destruct ((d_blen s <? 128) && (d_level s <? 8)).
    + destruct (_ && _)%bool.
      * rewrite E0. destruct (0 <? d_comp s); (eexists; split; [reflexivity|exact E1]).
      * destruct (_ <=? _)%Z; [rewrite E2|rewrite E4]; (eexists; split; [reflexivity|assumption]).
    + destruct (_ && _)%bool.
      * rewrite E0. destruct (0 <? d_comp s); (eexists; split; [reflexivity|exact E1]).
      * destruct (_ <=? _)%Z; [rewrite E2|rewrite E4]; (eexists; split; [reflexivity|assumption]).
Qed.

(** * Adding a literal or a pair *)
Lemma nth_bump : forall i j (l : list Z), i < length l ->
  nth j (upd i (nth i l 0 + 1)%Z l) 0%Z = (nth j l 0 + (if (i =? j)%nat then 1 else 0))%Z.
Proof.
  intros i j l H. destruct (Nat.eqb_spec i j) as [->|N]; [rewrite upd_nth_eq by exact H; reflexivity|].
  rewrite upd_nth_neq by exact N. lia.
Qed.

Lemma bump_nonneg : forall i (l : list Z), Forall (fun c => (0 <= c)%Z) l ->
  Forall (fun c => (0 <= c)%Z) (upd i (nth i l 0 + 1)%Z l).
Proof.
  intros i l H. apply upd_Forall; [exact H|]. destruct (Nat.lt_ge_cases i (length l)) as [L|L].
  - pose proof (proj1 (Forall_nth _ l) H i 0%Z L) as Q. cbv beta in Q. lia.
  - rewrite nth_overflow by lia. lia.
Qed.

Lemma pending_add : forall h data data' toks lits dists t,
  pending W h data toks lits dists -> tok_step W (h ++ data) t (h ++ data') ->
  t_lit t < 286 -> t_dist t < 30 ->
  pending W h data' (toks ++ [t]) (upd (t_lit t) (nth (t_lit t) lits 0 + 1)%Z lits)
    (if 257 <=? t_lit t then upd (t_dist t) (nth (t_dist t) dists 0 + 1)%Z dists else dists).
Proof.
  intros h data data' toks lits dists t [P1 P2 P3 P4 P5 P6 P7] HT HL HD2.
  assert (ND : forall j, (nth j dists 0 <= nth j (if (257 <=? t_lit t)%nat then upd (t_dist t) (nth (t_dist t) dists 0 + 1) dists else dists) 0)%Z).
  { intros j. destruct (257 <=? t_lit t); [|lia]. rewrite nth_bump by lia. destruct (_ =? _)%nat; lia. }
  assert (NL : forall j, (nth j lits 0 <= nth j (upd (t_lit t) (nth (t_lit t) lits 0 + 1) lits) 0)%Z).
  { intros j. rewrite nth_bump by lia. destruct (_ =? _)%nat; lia. }
  assert (NN : forall j, (0 <= nth j dists 0)%Z).
  { intros j. destruct (Nat.lt_ge_cases j (length dists)) as [L|L]; [exact (proj1 (Forall_nth _ dists) P5 j 0%Z L)|rewrite nth_overflow by lia; lia]. }
  constructor.
  - eapply expands_app; [exact P1|]. cbn [expands]. exists (h ++ data'). split; [exact HT|reflexivity].
  - rewrite upd_length. exact P2.
  - destruct (257 <=? t_lit t); [rewrite upd_length|]; exact P3.
  - apply bump_nonneg. exact P4.
  - destruct (257 <=? t_lit t); [apply bump_nonneg|]; exact P5.
  - intros H j Hj. destruct (Nat.leb_spec 257 (t_lit t)) as [L|L].
    + specialize (H (t_dist t)). rewrite nth_bump in H by lia. rewrite Nat.eqb_refl in H. specialize (NN (t_dist t)). lia.
    + rewrite nth_bump by lia. destruct (Nat.eqb_spec (t_lit t) j); [lia|]. rewrite Z.add_0_r. apply P6; [exact H|exact Hj].
  - apply Forall_app. split.
    + eapply Forall_impl; [|exact P7]. intros u [U1 U2]. split; [specialize (NL (t_lit u)); lia|].
      intros U3. specialize (U2 U3). specialize (ND (t_dist u)). lia.
    + constructor; [|constructor]. split.
      * rewrite nth_bump by lia. rewrite Nat.eqb_refl. specialize (NL (t_lit t)).
        pose proof (proj1 (Forall_nth _ lits) P4 (t_lit t) 0%Z ltac:(lia)) as Q. cbv beta in Q. lia.
      * intros U. destruct (Nat.leb_spec 257 (t_lit t)); [|lia]. rewrite nth_bump by lia. rewrite Nat.eqb_refl.
        specialize (NN (t_dist t)). lia.
Qed.

Lemma room_ok : forall X B s, good X B s -> pend X B s ->
  exists s', room M s = Some s' /\ good X B s' /\ pend X B s' /\ same_input s s'.
Proof.
  intros X B s G P. unfold room. destruct (_ =? _)%nat.
  - destruct (end_block_ok X B s G (or_introl P)) as (s' & E1 & E2 & E3 & E4 & _). exists s'. auto.
  - exists s. split; [reflexivity|]. split; [exact G|]. split; [exact P|repeat split].
Qed.

(** The bytes of the block and one more piece. *)
Lemma pend_data : forall X B s n, pend X B s -> B + d_bstart s + d_blen s + n <= length X ->
  forall t, tok_step W (firstn (B + d_bstart s + d_blen s) X) t (firstn (B + d_bstart s + d_blen s + n) X) ->
  t_lit t < 286 -> t_dist t < 30 -> pend X B (add_token s t n).
Proof.
  intros X B s n P HL t HT H1 H2. unfold pend in *. unfold add_token. cbn [d_bstart d_blen d_toks d_lits d_dists].
  eapply pending_add; [exact P| |exact H1|exact H2].
  rewrite <- !firstn_add. rewrite <- !Nat.add_assoc in *. exact HT.
Qed.

Lemma literal_ok : forall X B s a, good X B s -> pend X B s -> d_bstart s + d_blen s = a -> a < d_start s + d_look s ->
  exists s', literal_byte M s (nth a (d_buf s) 0%Z) = Some s' /\ pend X B s' /\ same_input s s'
    /\ d_bstart s' + d_blen s' = a + 1 /\ written W (d_w s') (firstn (B + d_bstart s') X).
Proof.
  intros X B s a G P HA HE. unfold literal_byte.
  assert (HA2 : a = d_start s - (if d_avail s then 1 else 0)) by (pose proof (g_blk _ _ _ G); destruct (d_avail s); lia).
  destruct (room_ok X B s G P) as (s1 & E & G1 & P1 & S1). rewrite E.
  assert (BL : d_bstart s1 + d_blen s1 = a).
  { pose proof (g_blk _ _ _ G1) as Q. pose proof (g_blk _ _ _ G). destruct S1 as (A1 & A2 & A3 & A4 & _). rewrite A1, A4 in Q. destruct (d_avail s); lia. }
  pose proof (g_eq _ _ _ G a HE) as V.
  assert (LX : B + a < length X) by (pose proof (g_X _ _ _ G); lia).
  assert (VB : (0 <= nth (B + a) X 0 < 256)%Z) by (exact (proj1 (Forall_nth _ X) (g_bytes _ _ _ G) (B + a) 0%Z LX)).
  rewrite V. eexists. split; [reflexivity|]. split; [|split; [|split]].
  - apply pend_data; [exact P1|lia| | |cbn; lia].
    + left. cbn [t_lit]. split; [lia|]. rewrite Z2Nat.id by lia.
      replace (B + d_bstart s1 + d_blen s1) with (B + a) by lia. rewrite firstn_add. f_equal.
      apply nth_ext2; rewrite firstn_length_le by (rewrite skipn_length; lia); [reflexivity|].
      intros i Hi. assert (i = 0) by lia. subst i. rewrite nth_firstn_lt by lia. rewrite nth_skipn_add, Nat.add_0_r. reflexivity.
    + cbn [t_lit]. lia.
  - exact S1.
  - cbn [add_token d_bstart d_blen]. lia.
  - exact (g_w _ _ _ G1).
Qed.

Lemma match_ok : forall X B s, good X B s -> pend X B s -> d_avail s = true ->
  exists s', match_found M s ((Z.of_nat (d_start s) - 1 - d_pmatch s) mod 2 ^ 32)%Z (d_plen s) = Some s'
    /\ pend X B s' /\ same_input s s'
    /\ d_bstart s' + d_blen s' = d_start s - 1 + d_plen s /\ written W (d_w s') (firstn (B + d_bstart s') X).
Proof.
  intros X B s G P HA. unfold match_found.
  destruct (g_avail _ _ _ G HA) as (A1 & A2 & d & A3 & A4 & A5 & A6). rewrite A5.
  destruct (room_ok X B s G P) as (s1 & E & G1 & P1 & S1). rewrite E.
  assert (BL : d_bstart s1 + d_blen s1 = d_start s - 1 /\ 1 <= d_start s).
  { pose proof (g_blk _ _ _ G1) as Q. destruct S1 as (Q1 & Q2 & Q3 & Q4 & _). rewrite Q1, Q4, HA in Q. lia. }
  pose proof D_range as DR. pose proof (g_X _ _ _ G) as LX.
  destruct (length_token (Z.of_nat d) (d_plen s) A1) as (ls & le & L1 & L2 & L3 & L4).
  destruct (distance_token (Z.of_nat d) (d_plen s) ltac:(lia)) as (ds & de & D1 & D2 & D3 & D4 & D5).
  eexists. split; [reflexivity|]. split; [|split; [|split]].
  - apply pend_data; [exact P1|lia| |lia|exact D4].
    right. exists ls, le, ds, de. split; [lia|]. split; [exact L1|]. split; [exact L3|]. split; [exact D1|]. split; [exact D3|].
    assert (DD : Z.to_nat ds + t_dextra (match_token (Z.of_nat d) (d_plen s)) = d) by lia.
    rewrite DD, L2. replace (B + d_bstart s1 + d_blen s1) with (B + (d_start s - 1)) by lia.
    rewrite firstn_length_le by lia. split; [lia|]. split; [lia|].
    symmetry. apply lz_copy_eq; [lia|lia|exact A6].
  - exact S1.
  - cbn [add_token d_bstart d_blen]. lia.
  - exact (g_w _ _ _ G1).
Qed.

(** * ProcessBuffer *)
Lemma insert_strings_ok : forall X B fuel s, good X B s -> let s' := insert_strings fuel D s in
  good X B s' /\ (pend X B s -> pend X B s') /\ d_start s' = d_start s /\ d_look s' = d_look s /\ d_min s' = d_min s
  /\ d_avail s' = d_avail s /\ d_level s' = d_level s.
Proof.
  intros X B. induction fuel as [|fuel IH]; intros s G s'; subst s'; cbn [insert_strings].
  - split; [exact G|]. split; [auto|repeat split].
  - destruct (Nat.ltb_spec (d_dict s) (d_start s)) as [L|L]; cbn [andb]; [|split; [exact G|split; [auto|repeat split]]].
    destruct (Nat.leb_spec (d_dict s + 3) (d_start s + d_look s)) as [L2|L2]; [|split; [exact G|split; [auto|repeat split]]].
    assert (G2 : good X B (insert_string D s)).
    { pose proof (chains_insert k s (g_head _ _ _ G) (g_prev _ _ _ G) (g_chains _ _ _ G)) as CH.
      destruct G as [G1 G2 G3 G4 G5 G6 G7 G8 G9 G10 G11 G12].
      constructor; cbn [insert_string d_buf d_start d_look d_bstart d_blen d_avail d_head d_prev d_dict d_plen d_pmatch d_w];
        rewrite ?upd_length; try assumption. lia. }
    destruct (IH _ G2) as (I1 & I2 & I3 & I4 & I5 & I6 & I7).
    split; [exact I1|]. split; [intros P; apply I2; exact P|]. cbn [insert_string d_start d_look d_min d_avail d_level] in *. repeat split; assumption.
Qed.

Lemma process_step_ok : forall X B s, good X B s -> pend X B s -> 0 < d_look s ->
  exists s', process_step D M s = Some s' /\ good X B s' /\ pend X B s' /\ d_look s' < d_look s /\ d_min s' = d_min s.
Proof.
  intros X B s0 G0 P0 HL. unfold process_step.
  destruct (insert_strings_ok X B (d_start s0) s0 G0) as (G & P & S1 & S2 & S3 & S4 & S5). specialize (P P0).
  set (s := insert_strings (d_start s0) D s0) in *. clearbody s. rewrite <- S2, <- S3 in *. clear s0 G0 P0 S1 S2 S3 S4 S5.
  assert (LM : forall plen, let '(l, p) := longest_match D s plen in
    l = 0 \/ (0 < p < d_start s /\ d_start s < p + (D - 258) /\ 3 <= l <= 258 /\ l <= d_look s /\ plen <= l
            /\ agree (d_buf s) (d_start s) p l)).
  { intros plen. apply (longest_match_ok k s plen); [lia|exact (g_chains _ _ _ G)|apply (g_dict _ _ _ G)|].
    intros j Hj. rewrite (g_eq _ _ _ G j Hj). apply (proj1 (Forall_nth _ X) (g_bytes _ _ _ G)).
    pose proof (g_X _ _ _ G). lia. }
  (* the state after a pair is found at the position *)
  assert (AV : forall l p, (0 < p < d_start s /\ d_start s < p + (D - 258) /\ 3 <= l <= 258 /\ l <= d_look s
            /\ agree (d_buf s) (d_start s) p l) ->
      3 <= l <= 258 /\ l <= (d_look s - 1) + 1 /\
      exists d, 1 <= d <= D /\ d <= B + (d_start s + 1 - 1)
        /\ ((Z.of_nat (d_start s + 1) - 1 - Z.of_nat p) mod 2 ^ 32 = Z.of_nat d)%Z
        /\ forall j, j < l -> nth (B + (d_start s + 1 - 1) + j) X 0%Z = nth (B + (d_start s + 1 - 1) + j - d) X 0%Z).
  { intros l p (Q1 & Q2 & Q3 & Q4 & Q5). split; [exact Q3|]. split; [lia|]. exists (d_start s - p).
    pose proof D_range. split; [lia|]. split; [lia|]. split.
    - rewrite Z.mod_small; [lia|]. change (2 ^ 32)%Z with 4294967296%Z. lia.
    - intros j Hj. specialize (Q5 j Hj). rewrite !(g_eq _ _ _ G) in Q5 by lia.
      replace (B + (d_start s + 1 - 1) + j) with (B + (d_start s + j)) by lia.
      replace (B + (d_start s + j) - (d_start s - p)) with (B + (p + j)) by lia. exact Q5. }
  destruct G as [G1 G2 G3 G4 G5 G6 G7 G8 G9 G10 G11 G12]. pose proof (mkgood X B s G1 G2 G3 G4 G5 G6 G7 G8 G9 G10 G11 G12) as G.
  destruct (d_avail s) eqn:HA.
  - assert (CS : exists l p, (if d_lazy s <=? d_plen s then (0, 0) else longest_match D s (d_plen s)) = (l, p)
      /\ (l = 0 \/ (0 < p < d_start s /\ d_start s < p + (D - 258) /\ 3 <= l <= 258 /\ l <= d_look s
            /\ agree (d_buf s) (d_start s) p l))).
    { destruct (d_lazy s <=? d_plen s); [exists 0, 0; split; [reflexivity|left; reflexivity]|].
      specialize (LM (d_plen s)). destruct (longest_match D s (d_plen s)) as [l p]. exists l, p. split; [reflexivity|]. tauto. }
    destruct CS as (l & p & -> & CS). destruct (G11 eq_refl) as (A1 & A2 & A3).
    destruct (Nat.eqb_spec l 0) as [Z|Z].
    + destruct (match_ok X B s G P HA) as (s1 & E1 & E2 & E3 & E4 & E5). rewrite E1.
      destruct E3 as (F1 & F2 & F3 & F4 & F5 & F6 & F7 & F8 & F9 & F10).
      eexists. split; [reflexivity|].
      rewrite F1, F2, F5. split; [|split; [exact E2|cbn [set_match d_look d_min]; split; [lia|exact F3]]].
      constructor; cbn [set_match d_buf d_start d_look d_bstart d_blen d_avail d_head d_prev d_dict d_plen d_pmatch d_w];
        rewrite ?F7, ?F8, ?F9, ?F10; try assumption; try lia.
      * intros q Hq. apply G5. lia.
    + destruct CS as [CS|CS]; [contradiction|].
      destruct (literal_ok X B s (d_start s - 1) G P ltac:(lia) ltac:(lia)) as (s1 & E1 & E2 & E3 & E4 & E5). rewrite E1.
      destruct E3 as (F1 & F2 & F3 & F4 & F5 & F6 & F7 & F8 & F9 & F10).
      eexists. split; [reflexivity|].
      rewrite F1, F2. split; [|split; [exact E2|cbn [set_match d_look d_min]; split; [lia|exact F3]]].
      constructor; cbn [set_match d_buf d_start d_look d_bstart d_blen d_avail d_head d_prev d_dict d_plen d_pmatch d_w];
        rewrite ?F7, ?F8, ?F9, ?F10; try assumption; try lia.
      * intros q Hq. apply G5. lia.
      * intros _. apply AV. exact CS.
  - specialize (LM 0). destruct (longest_match D s 0) as [l p].
    destruct (Nat.eqb_spec l 0) as [Z|Z].
    + destruct (literal_ok X B s (d_start s) G P ltac:(lia) ltac:(lia)) as (s1 & E1 & E2 & E3 & E4 & E5). rewrite E1.
      destruct E3 as (F1 & F2 & F3 & F4 & F5 & F6 & F7 & F8 & F9 & F10).
      eexists. split; [reflexivity|].
      rewrite F1, F2. split; [|split; [exact E2|cbn [set_match d_look d_min]; split; [lia|exact F3]]].
      constructor; cbn [set_match d_buf d_start d_look d_bstart d_blen d_avail d_head d_prev d_dict d_plen d_pmatch d_w];
        rewrite ?F7, ?F8, ?F9, ?F10; try assumption; try lia.
      * intros q Hq. apply G5. lia.
    + destruct LM as [LM|LM]; [contradiction|]. eexists. split; [reflexivity|].
      split; [|split; [exact P|cbn [set_match d_look d_min]; split; [lia|reflexivity]]].
      constructor; cbn [set_match d_buf d_start d_look d_bstart d_blen d_avail d_head d_prev d_dict d_plen d_pmatch d_w];
        try assumption; try lia.
      * intros q Hq. apply G5. lia.
      * intros _. apply AV. tauto.
Qed.

Lemma process_loop_ok : forall X B fuel s, good X B s -> pend X B s -> d_look s <= fuel ->
  exists s', process_loop fuel D M s = Some s' /\ good X B s' /\ pend X B s' /\ d_look s' <= d_min s' /\ d_min s' = d_min s.
Proof.
  intros X B. induction fuel as [|fuel IH]; intros s G P HF; cbn [process_loop].
  - exists s. split; [reflexivity|]. split; [exact G|]. split; [exact P|]. split; [lia|reflexivity].
  - destruct (Nat.ltb_spec (d_min s) (d_look s)) as [L|L].
    + destruct (process_step_ok X B s G P ltac:(lia)) as (s1 & E & G1 & P1 & L1 & M1). rewrite E.
      destruct (IH s1 G1 P1 ltac:(lia)) as (s2 & E2 & G2 & P2 & L2 & M2). exists s2. rewrite <- M1. auto.
    + exists s. split; [reflexivity|]. split; [exact G|]. split; [exact P|]. split; [lia|reflexivity].
Qed.

Lemma process_buffer_ok : forall X B s, good X B s -> ready X B s ->
  exists s', process_buffer D M s = Some s' /\ good X B s' /\ ready X B s' /\ d_look s' <= d_min s' /\ d_min s' = d_min s
    /\ (d_min s = 0 -> d_avail s' = false).
Proof.
  intros X B s G R. unfold process_buffer.
  destruct (Nat.eqb_spec (d_level s) 0) as [LV|LV].
  - destruct G as [G1 G2 G3 G4 G5 G6 G7 G8 G9 G10 G11 G12].
    assert (BS : d_bstart s + d_blen s <= d_start s) by (destruct (d_avail s); lia).
    eexists. split; [reflexivity|].
    split; [|split; [|cbn [set_match set_block d_look d_min d_avail]; split; [lia|split; reflexivity]]].
    + constructor; cbn [set_match set_block d_buf d_start d_look d_bstart d_blen d_avail d_head d_prev d_dict d_plen d_pmatch d_w];
        try assumption; try lia.
      * intros q Hq. apply G5. lia.
    + unfold ready, pend. cbn [set_match set_block d_bstart d_blen d_toks d_lits d_dists d_level].
      destruct (Nat.eq_dec (d_start s + d_look s - d_bstart s) 0) as [Z|Z]; [|right; split; [exact LV|lia]].
      left. rewrite Z. destruct R as [R|[_ R]]; [|lia]. unfold pend in R. replace (d_blen s) with 0 in R by lia. exact R.
  - destruct R as [R|[? _]]; [|contradiction].
    destruct (process_loop_ok X B (d_look s) s G R ltac:(lia)) as (s1 & E & G1 & P1 & L1 & M1). rewrite E.
    destruct (Nat.eqb_spec (d_min s1) 0) as [Z|Z]; cbn [andb].
    + destruct (d_avail s1) eqn:HA.
      * pose proof (g_blk _ _ _ G1) as BK. rewrite HA in BK.
        destruct (literal_ok X B s1 (d_start s1 - 1) G1 P1 ltac:(lia) ltac:(lia)) as (s2 & E1 & E2 & E3 & E4 & E5). rewrite E1.
        destruct E3 as (F1 & F2 & F3 & F4 & F5 & F6 & F7 & F8 & F9 & F10).
        eexists. split; [reflexivity|]. rewrite F1, F2.
        split; [|split; [left; exact E2|cbn [set_match d_look d_min d_avail]; split; [lia|split; [congruence|reflexivity]]]].
        destruct G1 as [G1 G2 G3 G4 G5 G6 G7 G8 G9 G10 G11 G12].
        constructor; cbn [set_match d_buf d_start d_look d_bstart d_blen d_avail d_head d_prev d_dict d_plen d_pmatch d_w];
          rewrite ?F7, ?F8, ?F9, ?F10; try assumption; try lia.
      * exists s1. split; [reflexivity|]. split; [exact G1|]. split; [left; exact P1|]. split; [exact L1|]. split; [exact M1|]. intros _. exact HA.
    + exists s1. split; [reflexivity|]. split; [exact G1|]. split; [left; exact P1|]. split; [exact L1|]. split; [exact M1|]. lia.
Qed.

(** * FillWindow *)
Lemma shift_good : forall X B s, good X B s -> D <= d_bstart s -> good X (B + D) (shift_window D s).
Proof.
  intros X B s [G1 G2 G3 G4 G5 G6 G7 G8 G9 G10 G11 G12] HD.
  pose proof D_range. pose proof max_block_eq.
  assert (ST : D <= d_start s) by (destruct (d_avail s); lia).
  assert (NB : forall p, p < D -> nth p (firstn D (skipn D (d_buf s)) ++ skipn D (d_buf s)) 0%Z = nth (D + p) (d_buf s) 0%Z).
  { intros p Hp. rewrite app_nth1 by (rewrite firstn_length_le; [exact Hp|rewrite skipn_length; lia]).
    rewrite nth_firstn_lt by exact Hp. apply nth_skipn_add. }
  assert (NH : forall p, p + 3 <= d_start s + d_look s - D ->
    compute_hash D (firstn D (skipn D (d_buf s)) ++ skipn D (d_buf s)) p = compute_hash D (d_buf s) (p + D)).
  { intros p Hp. unfold compute_hash. rewrite !NB by lia. f_equal; f_equal; lia. }
  constructor; cbn [shift_window d_buf d_start d_look d_bstart d_blen d_avail d_head d_prev d_dict d_plen d_pmatch d_w];
    rewrite ?map_length; try assumption; try lia.
  - rewrite app_length, firstn_length_le, skipn_length by (rewrite skipn_length; lia). lia.
  - intros p Hp. rewrite NB by lia. rewrite G5 by lia. f_equal. lia.
  - destruct G10 as [C1 C2]. constructor.
    + intros h Hh. rewrite (nth_indep _ 0 (0 - D)) by (rewrite map_length; lia). rewrite (map_nth (fun x => x - D)).
      destruct (C1 h Hh) as [Z|[Z1 Z2]]; [rewrite Z; left; lia|].
      destruct (Nat.le_gt_cases (nth h (d_head s) 0) D); [left; lia|]. right. split; [lia|].
      rewrite NH by lia. rewrite Nat.sub_add by lia. exact Z2.
    + intros p Hp Hp2. assert (PM : (p + D) mod D = p mod D).
      { replace (p + D) with (p + 1 * D) by lia. apply Nat.mod_add. lia. }
      assert (p mod D < D) by (apply Nat.mod_upper_bound; lia).
      rewrite (nth_indep _ 0 (0 - D)) by (rewrite map_length; lia). rewrite (map_nth (fun x => x - D)).
      destruct (C2 (p + D)) as [Z|[Z1 Z2]]; [lia|lia| |]; rewrite PM in *; [rewrite Z; left; lia|].
      destruct (Nat.le_gt_cases (nth (p mod D) (d_prev s) 0) D); [left; lia|]. right. split; [lia|].
      rewrite !NH by lia. rewrite Nat.sub_add by lia. exact Z2.
  - intros HA. destruct (G11 HA) as (A1 & A2 & d & A3 & A4 & A5 & A6). rewrite HA in G6.
    split; [exact A1|]. split; [exact A2|]. exists d. split; [exact A3|]. split; [lia|]. split.
    + rewrite Zminus_mod_idemp_r. rewrite <- A5. f_equal. rewrite Nat2Z.inj_sub by exact ST. lia.
    + intros j Hj. replace (B + D + (d_start s - D - 1) + j) with (B + (d_start s - 1) + j) by lia. apply A6. exact Hj.
  - replace (B + D + (d_bstart s - D)) with (B + d_bstart s) by lia. exact G12.
Qed.

Lemma shift_pend : forall X B s, D <= d_bstart s -> (pend X B s -> pend X (B + D) (shift_window D s))
  /\ (ready X B s -> ready X (B + D) (shift_window D s)).
Proof.
  intros X B s HD. assert (P : pend X B s -> pend X (B + D) (shift_window D s)).
  { unfold pend. cbn [shift_window d_bstart d_blen d_toks d_lits d_dists].
    replace (B + D + (d_bstart s - D)) with (B + d_bstart s) by lia. auto. }
  split; [exact P|]. intros [R|R]; [left; exact (P R)|right; exact R].
Qed.

Lemma pending_more : forall X Y B s, good X B s -> pend X B s -> pend (X ++ Y) B s.
Proof.
  intros X Y B s G P. unfold pend in *. pose proof (g_X _ _ _ G). pose proof (g_blk _ _ _ G) as BK.
  assert (d_bstart s + d_blen s <= d_start s) by (destruct (d_avail s); lia).
  rewrite firstn_app, skipn_app. replace (B + d_bstart s - length X) with 0 by lia. cbn [firstn skipn]. rewrite app_nil_r.
  rewrite firstn_app. replace (d_blen s - length (skipn (B + d_bstart s) X)) with 0 by (rewrite skipn_length; lia).
  cbn [firstn]. rewrite app_nil_r. exact P.
Qed.

Lemma take_in_good : forall X B s l, good X B s -> bytes l -> d_start s + d_look s + length l <= max_block D ->
  good (X ++ l) B (take_in s l).
Proof.
  intros X B s l G HB HL. pose proof G as GG. destruct G as [G1 G2 G3 G4 G5 G6 G7 G8 G9 G10 G11 G12].
  pose proof max_block_eq.
  set (E := d_start s + d_look s) in *.
  assert (NB : forall p, p < E -> nth p (firstn E (d_buf s) ++ l ++ skipn (E + length l) (d_buf s)) 0%Z = nth p (d_buf s) 0%Z).
  { intros p Hp. rewrite app_nth1 by (rewrite firstn_length_le; lia). apply nth_firstn_lt. exact Hp. }
  assert (NH : forall p, p + 3 <= E ->
    compute_hash D (firstn E (d_buf s) ++ l ++ skipn (E + length l) (d_buf s)) p = compute_hash D (d_buf s) p).
  { intros p Hp. unfold compute_hash. rewrite !NB by lia. reflexivity. }
  constructor; cbn [take_in d_buf d_start d_look d_bstart d_blen d_avail d_head d_prev d_dict d_plen d_pmatch d_w]; fold E;
    try assumption; try lia.
  - apply bytes_app. split; assumption.
  - rewrite !app_length, firstn_length_le, skipn_length by lia. lia.
  - rewrite app_length. lia.
  - intros p Hp. destruct (Nat.lt_ge_cases p E) as [L|L].
    + rewrite NB by exact L. rewrite G5 by exact L. rewrite app_nth1 by lia. reflexivity.
    + rewrite app_nth2 by (rewrite firstn_length_le; lia). rewrite firstn_length_le by lia.
      rewrite app_nth1 by lia. rewrite (app_nth2 X) by lia. f_equal. lia.
  - destruct G10 as [C1 C2]. constructor.
    + intros h Hh. destruct (C1 h Hh) as [Z|[Z1 Z2]]; [left; exact Z|right; split; [exact Z1|]]. rewrite NH by lia. exact Z2.
    + intros p Hp Hp2. destruct (C2 p Hp Hp2) as [Z|[Z1 Z2]]; [left; exact Z|right; split; [exact Z1|]]. rewrite !NH by lia. exact Z2.
  - intros HA. destruct (G11 HA) as (A1 & A2 & d & A3 & A4 & A5 & A6). rewrite HA in G6.
    split; [exact A1|]. split; [lia|]. exists d. split; [exact A3|]. split; [exact A4|]. split; [exact A5|].
    intros j Hj. rewrite !app_nth1 by lia. apply A6. exact Hj.
  - assert (d_bstart s <= d_start s) by (destruct (d_avail s); lia).
    rewrite firstn_app. replace (B + d_bstart s - length X) with 0 by lia. cbn [firstn]. rewrite app_nil_r. exact G12.
Qed.

Lemma fill_window_ok : forall X B s str, good X B s -> ready X B s -> bytes str -> d_look s <= 258 -> str <> [] ->
  exists s' B' n, fill_window D s str = Some (s', n) /\ 0 < n <= length str
    /\ good (X ++ firstn n str) B' s' /\ ready (X ++ firstn n str) B' s' /\ d_min s' = d_min s.
Proof.
  intros X B s str G R HB HL HN. unfold fill_window. pose proof D_range. pose proof max_block_eq.
  assert (S1 : exists s1 B1, (if max_block D - 258 <=? d_start s
         then match (if d_bstart s <? D then end_block false s else Some s) with
              | None => None | Some s => Some (shift_window D s) end
         else Some s) = Some s1 /\ good X B1 s1 /\ ready X B1 s1 /\ d_min s1 = d_min s /\ d_start s1 + d_look s1 < max_block D).
  { destruct (Nat.leb_spec (max_block D - 258) (d_start s)) as [L|L].
    - destruct (Nat.ltb_spec (d_bstart s) D) as [L2|L2].
      + destruct (end_block_ok X B s G R) as (s1 & E & G1 & P1 & S1 & Z1). rewrite E.
        destruct S1 as (F1 & F2 & F3 & F4 & F5 & F6 & F7 & F8 & F9 & F10).
        assert (BS : D <= d_bstart s1) by (pose proof (g_blk _ _ _ G1); destruct (d_avail s1); lia).
        exists (shift_window D s1), (B + D). split; [reflexivity|]. split; [apply shift_good; assumption|].
        split; [apply (proj2 (shift_pend X B s1 BS)); left; exact P1|].
        split; [exact F3|]. cbn [shift_window d_start d_look]. pose proof (g_end _ _ _ G). lia.
      + exists (shift_window D s), (B + D). split; [reflexivity|]. split; [apply shift_good; assumption|].
        split; [apply (proj2 (shift_pend X B s L2)); exact R|].
        split; [reflexivity|]. cbn [shift_window d_start d_look]. pose proof (g_end _ _ _ G). lia.
    - exists s, B. split; [reflexivity|]. split; [exact G|]. split; [exact R|]. split; [reflexivity|lia]. }
  destruct S1 as (s1 & B1 & -> & G1 & R1 & M1 & L1).
  set (n := Nat.min (max_block D - (d_start s1 + d_look s1)) (length str)).
  assert (0 < length str) by (destruct str; [congruence|cbn; lia]).
  assert (LN : length (firstn n str) = n) by (apply firstn_length_le; lia).
  exists (take_in s1 (firstn n str)), B1, n. split; [reflexivity|]. split; [lia|]. split.
  { apply take_in_good; [exact G1|apply Forall_firstn; exact HB|lia]. }
  split; [|exact M1]. destruct R1 as [R1|R1]; [left|right; exact R1].
  exact (pending_more X (firstn n str) B1 s1 G1 R1).
Qed.

(** * The requests *)
Definition idle (X : list Z) (s : deflator) : Prop :=
  exists B, good X B s /\ ready X B s /\ d_look s <= 258 /\ d_min s = 258.

Lemma put2_loop_ok : forall fuel str X s, length str <= fuel -> bytes str -> idle X s ->
  exists s', put2_loop fuel D M s str = Some s' /\ idle (X ++ str) s'.
Proof.
  induction fuel as [|fuel IH]; intros str X s HF HB HI.
  - destruct str; [|cbn in HF; lia]. exists s. rewrite app_nil_r. split; [reflexivity|exact HI].
  - destruct str as [|x str']; [exists s; rewrite app_nil_r; split; [reflexivity|exact HI]|].
    set (str := x :: str') in *. assert (NE : str <> []) by discriminate.
    destruct HI as (B & G & R & HL & HM).
    destruct (fill_window_ok X B s str G R HB HL NE) as (s1 & B1 & n & E & N & G1 & R1 & M1).
    cbn [put2_loop]. unfold str at 1. rewrite E.
    destruct (process_buffer_ok _ _ _ G1 R1) as (s2 & E2 & G2 & R2 & L2 & M2 & _). rewrite E2.
    destruct (IH (skipn n str) (X ++ firstn n str) s2) as (s3 & E3 & I3).
    + rewrite skipn_length. lia.
    + apply Forall_skipn. exact HB.
    + exists B1. split; [exact G2|]. split; [exact R2|]. split; lia.
    + exists s3. split; [exact E3|]. rewrite <- app_assoc, firstn_skipn in I3. exact I3.
Qed.

Lemma set_min_ok : forall X B s m, (good X B s -> good X B (set_min s m)) /\ (ready X B s -> ready X B (set_min s m)).
Proof.
  intros X B s m. split; [|auto].
  intros [G1 G2 G3 G4 G5 G6 G7 G8 G9 G10 G11 G12]. constructor; assumption.
Qed.

Lemma flush_ok : forall X s hard, idle X s -> exists s', flush D M hard s = Some s' /\ idle X s'.
Proof.
  intros X s hard (B & G & R & HL & HM). unfold flush.
  destruct (process_buffer_ok X B (set_min s 0) (proj1 (set_min_ok X B s 0) G) (proj2 (set_min_ok X B s 0) R))
    as (s1 & E1 & G1 & R1 & L1 & M1 & A1). rewrite E1. cbn [set_min d_min] in M1. specialize (A1 eq_refl).
  destruct (end_block_ok X B (set_min s1 258) (proj1 (set_min_ok X B s1 258) G1) (proj2 (set_min_ok X B s1 258) R1))
    as (s2 & E2 & G2 & P2 & S2 & Z2). rewrite E2.
  destruct S2 as (F1 & F2 & F3 & F4 & F5 & F6 & F7 & F8 & F9 & F10). cbn [set_min d_look d_min] in F2, F3.
  destruct hard.
  - unfold block_data. rewrite Z2. cbn [firstn].
    pose proof (g_w _ _ _ G2) as GW.
    destruct (encode_block_ok W (d_w s2) false STORED (firstn (B + d_bstart s2) X) [] (d_toks s2) (d_lits s2) (d_dists s2))
      as [w' [Q1 Q2]]; [apply GW|constructor|cbn; lia|congruence|].
    rewrite Q1. eexists. split; [reflexivity|].
    pose proof (written_more _ _ _ _ _ GW Q2) as Q3. rewrite app_nil_r in Q3.
    exists B. split; [|split; [left; exact P2|cbn [set_writer d_look d_min]; lia]].
    destruct G2 as [H1 H2 H3 H4 H5 H6 H7 H8 H9 H10 H11 H12]. constructor; assumption.
  - exists s2. split; [reflexivity|]. exists B. split; [exact G2|]. split; [left; exact P2|]. lia.
Qed.

Lemma set_level_ok : forall X s level, level <= 9 -> idle X s -> exists s', set_level level s = Some s' /\ idle X s'.
Proof.
  intros X s level HLv (B & G & R & HL & HM). unfold set_level.
  destruct (Nat.ltb_spec 9 level); [lia|].
  destruct (level =? d_level s); [exists s; split; [reflexivity|exists B; auto]|].
  destruct (end_block_ok X B s G R) as (s2 & E2 & G2 & P2 & S2 & Z2). rewrite E2.
  destruct (nth level configuration (0, 0, 0)) as [[good0 lazy] chain].
  eexists. split; [reflexivity|].
  destruct S2 as (F1 & F2 & F3 & F4 & F5 & F6 & F7 & F8 & F9 & F10).
  exists B. split; [|split; [left; exact P2|cbn [d_look d_min]; lia]].
  destruct G2 as [H1 H2 H3 H4 H5 H6 H7 H8 H9 H10 H11 H12]. constructor; assumption.
Qed.

Lemma requests_ok : forall l X s, Forall request_ok l -> idle X s ->
  exists s', requests D M s l = Some s' /\ idle (X ++ message_data l) s'.
Proof.
  induction l as [|r l IH]; intros X s HF HI; cbn [requests message_data].
  - exists s. rewrite app_nil_r. split; [reflexivity|exact HI].
  - inversion HF as [|? ? H1 H2]; subst. destruct r as [piece|hard|level]; cbn [request_step].
    + destruct (put2_loop_ok (length piece) piece X s (le_n _) H1 HI) as (s1 & -> & I1).
      destruct (IH _ s1 H2 I1) as (s2 & E2 & I2). exists s2. rewrite app_assoc. auto.
    + destruct (flush_ok X s hard HI) as (s1 & -> & I1). apply IH; assumption.
    + destruct (set_level_ok X s level H1 HI) as (s1 & -> & I1). apply IH; assumption.
Qed.

Lemma end_block_frame : forall eof s s', end_block eof s = Some s' ->
  d_buf s' = d_buf s /\ d_head s' = d_head s /\ d_prev s' = d_prev s.
Proof.
  intros eof s s' H. unfold end_block in H.
  repeat match type of H with
  | (if ?c then _ else _) = _ => destruct c
  | match ?x with Some _ => _ | None => _ end = _ => destruct x
  end; try discriminate; injection H as <-; repeat split.
Qed.

Lemma finish_ok : forall X s rest, idle X s ->
  exists s', finish D M s = Some s' /\ wok (d_w s') /\ w_pend (d_w s') = [] /\ w_cnt (d_w s') = 0
    /\ length (d_buf s') = 2 * D /\ length (d_head s') = D /\ length (d_prev s') = D
    /\ bytes (w_sent (d_w s')) /\ deflated true W (w_sent (d_w s') ++ rest) X rest.
Proof.
  intros X s rest (B & G & R & HL & HM). unfold finish.
  destruct (process_buffer_ok X B (set_min s 0) (proj1 (set_min_ok X B s 0) G) (proj2 (set_min_ok X B s 0) R))
    as (s1 & E1 & G1 & R1 & L1 & M1 & A1). rewrite E1. cbn [set_min d_min] in M1. specialize (A1 eq_refl).
  destruct (end_block_last X B s1 rest G1 R1 ltac:(lia) A1) as (s2 & E2 & K2 & B2 & Q2). rewrite E2.
  destruct (end_block_frame _ _ _ E2) as (F1 & F2 & F3).
  destruct (flush_bits_spec _ K2) as (W1 & W2 & W3 & _).
  eexists. split; [reflexivity|]. cbn [set_writer d_w d_buf d_head d_prev]. rewrite F1, F2, F3.
  split; [exact W1|]. split; [exact W2|]. split; [exact W3|]. split; [exact (g_len _ _ _ G1)|].
  split; [exact (g_head _ _ _ G1)|]. split; [exact (g_prev _ _ _ G1)|]. split; assumption.
Qed.

Lemma empty_idle : forall s, d_avail s = false -> d_dict s = 0 -> d_start s = 0 -> d_look s = 0 -> d_min s = 258 ->
  length (d_buf s) = 2 * D -> length (d_head s) = D -> length (d_prev s) = D -> (forall h, nth h (d_head s) 0 = 0) ->
  d_lits s = repeat 0%Z 286 -> d_dists s = repeat 0%Z 30 -> d_toks s = [] -> d_bstart s = 0 -> d_blen s = 0 ->
  wok (d_w s) -> wbits (d_w s) = [] -> idle [] s.
Proof.
  intros s H1 H2 H3 H4 H5 H6 H7 H8 H9 H10 H11 H12 H13 H14 H15 H16. exists 0.
  split; [|split; [|split; lia]].
  - constructor; rewrite ?H1, ?H2, ?H3, ?H4, ?H13, ?H14; try assumption; try lia; try reflexivity.
    + constructor.
    + constructor; [intros h _; left; apply H9|intros; lia].
    + split; [exact H15|]. intros F hend send _ HI. rewrite H16. exact HI.
  - left. unfold pend. rewrite H10, H11, H12, H13, H14. cbn [firstn]. apply pending_nil.
Qed.

Lemma map_zero : forall (l : list nat) h, nth h (map (fun _ => 0) l) 0 = 0.
Proof. induction l as [|x l IH]; intros [|h]; cbn; auto. Qed.

Lemma messages_ok : forall ms s, Forall (Forall request_ok) ms -> idle [] s ->
  exists outs, messages D s ms = Some outs
    /\ Forall2 (fun m out => bytes out /\ forall rest, deflated true W (out ++ rest) (message_data m) rest) ms outs.
Proof.
  induction ms as [|m ms IH]; intros s HF HI; cbn [messages].
  - exists []. split; [reflexivity|constructor].
  - inversion HF as [|? ? F1 F2]; subst. unfold message. fold M.
    destruct (requests_ok m [] s F1 HI) as (s1 & -> & I1). cbn [app] in I1.
    destruct (finish_ok (message_data m) s1 [] I1) as (s2 & E2 & K1 & K2 & K3 & K4 & K5 & K6 & K7 & _). rewrite E2.
    assert (Q : forall rest, deflated true W (w_sent (d_w s2) ++ rest) (message_data m) rest).
    { intros rest. destruct (finish_ok (message_data m) s1 rest I1) as (s3 & E3 & _ & _ & _ & _ & _ & _ & _ & Q3).
      rewrite E2 in E3. injection E3 as <-. exact Q3. }
    assert (NI : idle [] (reset s2)).
    { destruct K1 as (U1 & U2 & U3 & U4).
      apply empty_idle; try reflexivity; try assumption.
      - cbn [reset d_head]. rewrite map_length. exact K5.
      - apply map_zero.
      - unfold wok. cbn [reset d_w w_counting w_buf w_cnt w_sent w_pend]. rewrite K2. split; [exact U1|]. split; [exact U2|]. split; [exact U3|constructor].
      - unfold wbits. cbn [reset d_w w_buf w_cnt w_sent w_pend]. rewrite K2, K3. reflexivity. }
    destruct (IH (reset s2) F2 NI) as (outs & EO & FO). cbv beta iota zeta. rewrite EO.
    exists (w_sent (d_w s2) :: outs). split; [reflexivity|]. constructor; [split; [exact K7|exact Q]|exact FO].
Qed.

Lemma deflator_new_idle : forall level detect buf prev pmatch plen, length buf = 2 * D -> length prev = D ->
  idle [] (deflator_new D level detect buf prev pmatch plen).
Proof.
  intros level detect buf prev pmatch plen H1 H2. unfold deflator_new.
  destruct (nth level configuration (0, 0, 0)) as [[g z] c].
  apply empty_idle; try reflexivity; try assumption.
  - apply repeat_length.
  - intros h. cbn [d_head]. destruct (Nat.lt_ge_cases h D); [apply nth_repeat_lt; assumption|apply nth_overflow; rewrite repeat_length; assumption].
  - apply (proj1 (written_new 0)).
Qed.

End Invariant.
