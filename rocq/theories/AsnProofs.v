(** Proofs about the ASN.1 codec. *)
From Coq Require Import ZArith List Bool Arith Lia.
From Verif Require Import Base AsnModel AsnSpec.
Import ListNotations.
Local Open Scope Z_scope.

Global Arguments Z.pow : simpl never.
Global Arguments Z.of_nat : simpl never.
Global Arguments Z.to_nat : simpl never.

Lemma lor_add : forall a b k, 0 <= k -> 0 <= b < 2 ^ k -> Z.lor (Z.shiftl a k) b = a * 2 ^ k + b.
Proof.
  intros. rewrite <- Z.shiftl_mul_pow2 by lia.
  assert (L : Z.land (Z.shiftl a k) b = 0).
  { apply Z.bits_inj'. intros i Hi. rewrite Z.land_spec, Z.bits_0.
    destruct (Z.ltb_spec i k).
    - rewrite Z.shiftl_spec_low by lia. reflexivity.
    - rewrite (testbit_above k b) by lia. apply andb_false_r. }
  rewrite Z.add_nocarry_lxor by auto. symmetry. apply Z.lxor_lor; auto.
Qed.

Lemma len_app : forall a b, len (a ++ b) = len a + len b.
Proof. intros. unfold len. rewrite app_length. lia. Qed.
Lemma len_cons : forall x b, len (x :: b) = 1 + len b.
Proof. intros. unfold len. cbn [length]. lia. Qed.
Lemma len_nonneg : forall a, 0 <= len a.
Proof. intros. unfold len. lia. Qed.
Lemma len_nil : len [] = 0.
Proof. reflexivity. Qed.
Lemma len_pos : forall a, a <> [] -> 0 < len a.
Proof. intros [|x a] H; [congruence|]. rewrite len_cons. pose proof (len_nonneg a). lia. Qed.
Lemma len_0 : forall a, len a = 0 -> a = [].
Proof. intros [|x a] H; auto. rewrite len_cons in H. pose proof (len_nonneg a). lia. Qed.

(* ------------------------------------------------------------------------- sources *)

Lemma count_bounds : forall s, src_ok s -> 0 <= s_count s <= len (s_in s).
Proof.
  intros [i fr] [H _]. cbn in H. unfold s_count, len. cbn [s_in s_frames].
  induction fr as [|f fr IH]; cbn [fold_right]; [lia|]. inversion H; subst. specialize (IH H3). destruct f; lia.
Qed.

Lemma len_visible : forall s, src_ok s -> len (visible s) = s_count s.
Proof.
  intros s H. pose proof (count_bounds s H). unfold visible, len in *. rewrite firstn_length. lia.
Qed.

Lemma visible_bytes : forall s, src_ok s -> bytes (visible s).
Proof. intros s [_ H]. apply bytes_firstn; auto. Qed.

Lemma count_frames : forall s l, In (Some l) (s_frames s) -> s_count s <= l.
Proof.
  intros [i fr] l H. cbn in H. unfold s_count. cbn [s_in s_frames]. induction fr as [|f fr IH]; [contradiction|].
  cbn [fold_right]. destruct H as [->|H]; [lia|]. specialize (IH H). destruct f; lia.
Qed.

Lemma skip_ok : forall s n, src_ok s -> 0 <= n <= s_count s -> src_ok (s_skip n s).
Proof.
  intros s n H Hn. split.
  - apply Forall_forall. intros f Hf. unfold s_skip in Hf. cbn [s_frames] in Hf. apply in_map_iff in Hf.
    destruct Hf as (g & <- & Hg). destruct g as [l|]; cbn; auto. pose proof (count_frames s l Hg). lia.
  - destruct H. apply bytes_skipn; auto.
Qed.

Lemma skip_count : forall s n, src_ok s -> 0 <= n <= s_count s -> s_count (s_skip n s) = s_count s - n.
Proof.
  intros [i fr] n [H _] Hn. cbn in H. unfold s_count, s_skip in *. cbn [s_in s_frames] in *.
  rewrite skipn_length. revert Hn. induction fr as [|f fr IH]; cbn [fold_right map option_map]; intros Hn; [lia|].
  inversion H; subst. destruct f as [l|]; cbn [option_map].
  - rewrite IH by (auto; lia). lia.
  - apply IH; auto.
Qed.

Lemma visible_skip : forall s n, src_ok s -> 0 <= n <= s_count s -> visible (s_skip n s) = skipn (Z.to_nat n) (visible s).
Proof.
  intros s n H Hn. unfold visible at 1. rewrite skip_count by auto. unfold s_skip. cbn [s_in]. unfold visible.
  rewrite skipn_firstn_comm. f_equal. lia.
Qed.

Lemma visible_skip_app : forall s a r, src_ok s -> visible s = a ++ r -> src_ok (s_skip (len a) s) /\ visible (s_skip (len a) s) = r.
Proof.
  intros s a r H V. pose proof (len_visible s H) as L. rewrite V, len_app in L. pose proof (len_nonneg r). pose proof (len_nonneg a).
  split. { apply skip_ok; auto. lia. }
  rewrite visible_skip by (auto; lia). rewrite V. unfold len. rewrite Nat2Z.id. apply skipn_app_exact.
Qed.

Lemma skip_skip : forall s a b, 0 <= a -> 0 <= b -> s_skip b (s_skip a s) = s_skip (a + b) s.
Proof.
  intros [i fr] a b Ha Hb. unfold s_skip. cbn [s_in s_frames]. f_equal.
  - rewrite skipn_skipn_add. f_equal. lia.
  - rewrite map_map. apply map_ext. intros [l|]; cbn; auto. f_equal. lia.
Qed.

Lemma get_cons : forall s b r, src_ok s -> visible s = b :: r -> s_get s = Some (b, s_skip 1 s) /\ src_ok (s_skip 1 s) /\ visible (s_skip 1 s) = r.
Proof.
  intros s b r H V. pose proof (len_visible s H) as L. rewrite V, len_cons in L. pose proof (len_nonneg r).
  destruct (visible_skip_app s [b] r H V) as [O W]. split; [|split; auto].
  unfold s_get. destruct (Z.leb_spec 1 (s_count s)); [|lia]. f_equal. f_equal.
  unfold visible in V. destruct (Z.to_nat (s_count s)) eqn:E; [lia|]. destruct (s_in s); cbn in V |- *; congruence.
Qed.

Lemma get_nil : forall s, src_ok s -> visible s = [] -> s_get s = None.
Proof.
  intros s H V. pose proof (len_visible s H) as L. rewrite V, len_nil in L. unfold s_get.
  destruct (Z.leb_spec 1 (s_count s)); auto; lia.
Qed.

Lemma getn_app : forall s a r, src_ok s -> visible s = a ++ r -> s_getn (len a) s = (a, s_skip (len a) s).
Proof.
  intros s a r H V. pose proof (len_visible s H) as L. rewrite V, len_app in L. pose proof (len_nonneg r). pose proof (len_nonneg a).
  unfold s_getn. rewrite Z.min_l by lia. f_equal. pose proof (count_bounds s H) as B.
  unfold visible in V. rewrite <- (firstn_skipn (Z.to_nat (s_count s)) (s_in s)), V, <- app_assoc. unfold len. rewrite Nat2Z.id.
  apply firstn_app_exact.
Qed.

(** What a decoder did, seen from outside: it took the bytes [e] off the front. *)
Lemma step_app : forall s a b r, src_ok s -> visible s = (a ++ b) ++ r ->
  s_skip (len b) (s_skip (len a) s) = s_skip (len (a ++ b)) s.
Proof. intros. rewrite skip_skip by apply len_nonneg. rewrite len_app. reflexivity. Qed.

(* ------------------------------------------------------------------------- lengths *)

Lemma prec_loop_spec : forall k fuel step v l h, 0 < step -> (k <= fuel)%nat -> h - l = step * 2 ^ Z.of_nat k -> 0 <= l -> (step | l) ->
  0 < v -> v < 2 ^ h -> (l = 0 \/ 2 ^ l <= v) ->
  let r := prec_loop fuel step v l h in (step | r) /\ 0 < r <= h /\ v < 2 ^ r /\ (r = step \/ 2 ^ (r - step) <= v).
Proof.
  induction k; intros fuel step v l h Hs Hf E Hl D V0 V1 V2.
  - change (2 ^ Z.of_nat 0) with 1 in E. assert (h = l + step) by lia. subst h.
    assert (R : prec_loop fuel step v l (l + step) = l + step).
    { destruct fuel; auto. cbn [prec_loop]. destruct (Z.ltb_spec step (l + step - l)); auto; lia. }
    cbv zeta. rewrite R. repeat split; auto; try lia. { apply Z.divide_add_r; auto. apply Z.divide_refl. }
    destruct V2 as [->|V2]; [left; lia|right]. replace (l + step - step) with l by lia. auto.
  - destruct fuel as [|f]; [lia|]. cbn [prec_loop]. rewrite Nat2Z.inj_succ, Z.pow_succ_r in E by lia.
    assert (P : 0 < 2 ^ Z.of_nat k) by (apply Z.pow_pos_nonneg; lia).
    destruct (Z.ltb_spec step (h - l)); [|nia].
    assert (T : (l + h) / 2 = l + step * 2 ^ Z.of_nat k).
    { replace (l + h) with ((l + step * 2 ^ Z.of_nat k) * 2) by lia. apply Z.div_mul; lia. }
    rewrite T. set (t := l + step * 2 ^ Z.of_nat k) in *. assert (0 < step * 2 ^ Z.of_nat k) by nia.
    assert (Dt : (step | t)). { apply Z.divide_add_r; auto. exists (2 ^ Z.of_nat k). lia. }
    destruct (Z.eqb_spec (Z.shiftr v t) 0) as [Z0|Z0]; rewrite Z.shiftr_div_pow2 in Z0 by lia.
    + destruct (IHk f step v l t) as (A & B & C); auto; try lia.
      { apply Z.div_small_iff in Z0; [|apply Z.pow_nonzero; lia]. pose proof (Z.pow_pos_nonneg 2 t). lia. }
      cbv zeta in *. split; auto. split; auto. lia.
    + apply IHk; auto; try lia. right. destruct (Z.lt_ge_cases v (2 ^ t)); auto. rewrite Z.div_small in Z0 by lia. congruence.
Qed.

Lemma byte_precision_spec : forall v, 0 < v < 2 ^ 64 ->
  let n := byte_precision 64 v in 1 <= n <= 8 /\ 256 ^ (n - 1) <= v < 256 ^ n.
Proof.
  intros v Hv. unfold byte_precision. destruct (Z.eqb_spec v 0); [lia|].
  destruct (prec_loop_spec 3 (Z.to_nat 64) 8 v 0 64) as ((q & Q) & B & C & D); try lia; auto.
  { apply Z.divide_0_r. }
  cbv zeta. rewrite Q in *. rewrite Z.div_mul by lia. rewrite !(Z.pow_mul_r 2 8 _ : True -> _) || idtac.
  change 256 with (2 ^ 8). rewrite <- !Z.pow_mul_r by lia. replace (8 * q) with (q * 8) by lia. replace (8 * (q - 1)) with (q * 8 - 8) by lia.
  split; [lia|]. split; auto. destruct D as [D|D]; auto. rewrite D. change (2 ^ (8 - 8)) with 1. lia.
Qed.

Lemma bit_precision_spec : forall v, 0 < v < 2 ^ 32 ->
  let n := bit_precision 32 v in 1 <= n <= 32 /\ 2 ^ (n - 1) <= v < 2 ^ n.
Proof.
  intros v Hv. unfold bit_precision. destruct (Z.eqb_spec v 0); [lia|].
  destruct (prec_loop_spec 5 (Z.to_nat 32) 1 v 0 32) as (_ & B & C & D); try lia; auto.
  { apply Z.divide_0_r. }
  cbv zeta. split; [lia|]. split; auto. destruct D as [D|D]; auto. rewrite D. change (2 ^ (1 - 1)) with 1. lia.
Qed.

Lemma put_bytes_be : forall n v, put_bytes n v = be_bytes n v.
Proof.
  induction n; intros; auto. cbn [put_bytes]. rewrite IHn. unfold be_bytes.
  replace (S n) with (n + 1)%nat by lia. rewrite le_bytes_app, rev_app_distr.
  f_equal. rewrite Z.shiftr_div_pow2 by lia. rewrite Z.pow_mul_r by lia. reflexivity.
Qed.

Lemma der_length_spec : forall l, 0 <= l < 2 ^ 64 -> der_len l (der_length l) /\ bytes (der_length l).
Proof.
  intros l H. unfold der_len, der_length. destruct (Z.leb_spec l 127); destruct (Z.ltb_spec l 128); try lia.
  - rewrite Z.mod_small by lia. split; auto. constructor; [unfold byte; lia|constructor].
  - destruct (byte_precision_spec l) as (B & C); [lia|]. cbv zeta in *. set (n := byte_precision 64 l) in *.
    assert (L : Z.lor n 128 mod 256 = 128 + n).
    { rewrite Z.lor_comm. change 128 with (Z.shiftl 1 7). rewrite lor_add by lia. rewrite Z.mod_small by lia. reflexivity. }
    rewrite L, put_bytes_be. assert (EL : len (be_bytes (Z.to_nat n) l) = n) by (unfold len; rewrite be_bytes_length; lia).
    split.
    + exists (be_bytes (Z.to_nat n) l). rewrite EL. split; auto. split; [apply be_bytes_bytes|].
      assert (V : be_val (be_bytes (Z.to_nat n) l) = l) by (apply be_val_be_bytes; rewrite Z2Nat.id by lia; lia).
      split; auto. pose proof (be_bytes_bytes (Z.to_nat n) l) as Y.
      destruct (be_bytes (Z.to_nat n) l) as [|d ds]; [rewrite len_nil in EL; lia|]. cbn. intros ->.
      change (0 :: ds) with ([0] ++ ds) in V. rewrite be_val_app in V. change (be_val [0]) with 0 in V. inversion Y as [|? ? Yb Yr].
      pose proof (be_val_bounds ds Yr) as Bd. rewrite len_cons in EL. unfold len in EL. replace (n - 1) with (Z.of_nat (length ds)) in C by lia. lia.
    + constructor; [unfold byte; lia|apply be_bytes_bytes].
Qed.

Lemma der_len_ber : forall l e, 0 <= l < 2 ^ 64 -> der_len l e -> ber_len l e.
Proof.
  intros l e H D. unfold der_len in D. destruct (Z.ltb_spec l 128); [left; split; auto; lia|].
  destruct D as (ds & -> & B & N & V). right. exists ds. split; auto. split; [|auto].
  destruct ds as [|d ds]; [change (be_val []) with 0 in V; lia|]. cbn in N. inversion B as [|? ? Yd Yr]; subst. unfold byte in Yd.
  pose proof (be_val_bounds ds Yr). change (d :: ds) with ([d] ++ ds) in H0, H. rewrite be_val_app in H0, H. change (be_val [d]) with d in H, H0.
  unfold len in *. cbn [length]. 
  assert (Z.of_nat (length ds) < 8).
  { destruct (Z.lt_ge_cases (Z.of_nat (length ds)) 8); auto.
    assert (256 ^ 8 <= 256 ^ Z.of_nat (length ds)) by (apply Z.pow_le_mono_r; lia). change (256 ^ 8) with (2 ^ 64) in *. nia. }
  lia.
Qed.

(** DER lengths are unique. *)
Lemma der_len_inj : forall l e e', der_len l e -> der_len l e' -> e = e'.
Proof.
  intros l e e' D D'. unfold der_len in *. destruct (l <? 128); [congruence|].
  destruct D as (ds & -> & B & N & V). destruct D' as (ds' & -> & B' & N' & V').
  assert (K : forall a b, bytes a -> bytes b -> hd 0 a <> 0 -> be_val a = be_val b -> (length a <= length b)%nat).
  { clear. intros a b A B N V. destruct a as [|x a]; cbn [length]; [lia|]. cbn in N. inversion A; subst. unfold byte in H1.
    change (x :: a) with ([x] ++ a) in V. rewrite be_val_app in V. change (be_val [x]) with x in V.
    pose proof (be_val_bounds a H2). pose proof (be_val_bounds b B).
    destruct (Nat.le_gt_cases (S (length a)) (length b)); auto.
    assert (256 ^ Z.of_nat (length b) <= 256 ^ Z.of_nat (length a)) by (apply Z.pow_le_mono_r; lia).
    assert (0 < 256 ^ Z.of_nat (length a)) by (apply Z.pow_pos_nonneg; lia). nia. }
  pose proof (K ds ds' B B' N ltac:(congruence)). pose proof (K ds' ds B' B N' ltac:(congruence)).
  assert (ds = ds') by (apply be_val_inj; auto; [lia|congruence]). subst. auto.
Qed.

Lemma shiftr56 : forall a, 0 <= a -> (Z.shiftr a 56 =? 0) = (a <? 2 ^ 56).
Proof.
  intros. rewrite Z.shiftr_div_pow2 by lia. destruct (Z.ltb_spec a (2 ^ 56)).
  - rewrite Z.div_small by lia. reflexivity.
  - apply Z.eqb_neq. intro E. apply Z.div_small_iff in E; [|discriminate]. lia.
Qed.

Lemma length_step : forall a b, 0 <= a < 2 ^ 56 -> byte b -> Z.lor (Z.shiftl a 8 mod 2 ^ 64) b = a * 256 + b.
Proof.
  intros a b Ha Hb. unfold byte in Hb. rewrite Z.mod_small.
  - rewrite lor_add by lia. reflexivity.
  - rewrite Z.shiftl_mul_pow2 by lia. change (2 ^ 64) with (2 ^ 56 * 2 ^ 8). nia.
Qed.

Lemma length_loop_ok : forall ds acc s rest, src_ok s -> visible s = ds ++ rest -> 0 <= acc ->
  acc * 256 ^ len ds + be_val ds < 2 ^ 64 ->
  length_loop (length ds) acc s = LOk true (acc * 256 ^ len ds + be_val ds) (s_skip (len ds) s).
Proof.
  induction ds as [|d ds IH]; intros acc s rest H V A B.
  - cbn. f_equal. { change (acc * 1 + 0 = acc) || idtac. unfold len. cbn [length]. change (256 ^ Z.of_nat 0) with 1. unfold be_val. cbn. lia. }
    unfold len. cbn [length]. change (Z.of_nat 0) with 0. destruct s as [i fr]. unfold s_skip. cbn [s_in s_frames]. f_equal.
    rewrite <- (map_id fr) at 1. apply map_ext. intros [l|]; cbn; auto. f_equal. lia.
  - pose proof (visible_bytes s H) as Y. rewrite V in Y. apply bytes_app in Y. destruct Y as [Y _]. inversion Y; subst.
    change (d :: ds) with ([d] ++ ds) in B. rewrite be_val_app in B. change (be_val [d]) with d in B.
    cbn [app] in B. rewrite len_cons in B. pose proof (len_nonneg ds). pose proof (be_val_bounds ds H3) as Bd.
    fold (len ds) in B. fold (len ds) in Bd. assert (P : 0 < 256 ^ len ds) by (apply Z.pow_pos_nonneg; lia).
    assert (E : 256 ^ (1 + len ds) = 256 * 256 ^ len ds) by (rewrite Z.pow_add_r by lia; reflexivity).
    unfold byte in H2.
    assert (A56 : acc < 2 ^ 56) by (change (2 ^ 64) with (256 * 2 ^ 56) in B; nia).
    cbn [length length_loop]. rewrite shiftr56 by lia. destruct (Z.ltb_spec acc (2 ^ 56)); [cbn [negb]|lia].
    destruct (get_cons s d (ds ++ rest) H V) as (G & O & W). rewrite G, length_step by (auto; lia).
    rewrite (IH (acc * 256 + d) (s_skip 1 s) rest); auto; [|lia|rewrite E in B; lia].
    rewrite skip_skip by lia. rewrite len_cons. f_equal. change (d :: ds) with ([d] ++ ds). rewrite be_val_app.
    change (be_val [d]) with d. fold (len ds). rewrite E. ring.
Qed.

Lemma length_loop_big : forall ds acc s rest, src_ok s -> visible s = ds ++ rest -> 0 <= acc < 2 ^ 64 ->
  2 ^ 64 <= acc * 256 ^ len ds + be_val ds -> length_loop (length ds) acc s = LThrow.
Proof.
  induction ds as [|d ds IH]; intros acc s rest H V A B.
  - unfold len in B. cbn [length] in B. change (256 ^ Z.of_nat 0) with 1 in B. unfold be_val in B. cbn in B. lia.
  - pose proof (visible_bytes s H) as Y. rewrite V in Y. apply bytes_app in Y. destruct Y as [Y _]. inversion Y; subst.
    change (d :: ds) with ([d] ++ ds) in B. rewrite be_val_app in B. change (be_val [d]) with d in B.
    cbn [app] in B. rewrite len_cons in B. pose proof (len_nonneg ds). fold (len ds) in B.
    assert (E : 256 ^ (1 + len ds) = 256 * 256 ^ len ds) by (rewrite Z.pow_add_r by lia; reflexivity).
    cbn [length length_loop]. rewrite shiftr56 by lia. destruct (Z.ltb_spec acc (2 ^ 56)); [cbn [negb]|reflexivity].
    destruct (get_cons s d (ds ++ rest) H V) as (G & O & W). rewrite G, length_step by (auto; lia). unfold byte in H2.
    apply (IH (acc * 256 + d) (s_skip 1 s) rest); auto; [|rewrite E in B; lia].
    change (2 ^ 64) with (256 * 2 ^ 56). lia.
Qed.

Lemma length_loop_short : forall n acc s, src_ok s -> (length (visible s) < n)%nat -> length_loop n acc s = LFalse \/ length_loop n acc s = LThrow.
Proof.
  induction n; intros acc s H L; [lia|]. cbn [length_loop]. destruct (negb _); auto.
  destruct (visible s) as [|d r] eqn:V.
  - rewrite get_nil by auto. auto.
  - destruct (get_cons s d r H V) as (G & O & W). rewrite G. apply IHn; auto. rewrite W. cbn [length] in L. lia.
Qed.

Lemma land128 : forall b, byte b -> (Z.land b 128 =? 0) = (b <? 128).
Proof.
  intros b H. unfold byte in H.
  assert (E : forall k, (k < 256)%nat -> (Z.land (Z.of_nat k) 128 =? 0) = (Z.of_nat k <? 128)).
  { assert (G : forallb (fun k => Bool.eqb (Z.land (Z.of_nat k) 128 =? 0) (Z.of_nat k <? 128)) (seq 0 256) = true) by (vm_compute; reflexivity).
    rewrite forallb_forall in G. intros k Hk. apply eqb_prop. apply G. apply in_seq. lia. }
  rewrite <- (Z2Nat.id b) by lia. apply E. lia.
Qed.
Lemma land127 : forall b, Z.land b 127 = b mod 128.
Proof. intros. change 127 with (Z.ones 7). apply Z.land_ones. lia. Qed.

Lemma mod128_add : forall k, 0 <= k < 128 -> (128 + k) mod 128 = k.
Proof. intros. symmetry. apply (Z.mod_unique _ _ 1); lia. Qed.

Lemma ber_len_bytes : forall l e, ber_len l e -> bytes e.
Proof.
  intros l e [(-> & H)|(ds & -> & H & B & _)].
  - repeat constructor; unfold byte; lia.
  - constructor; auto. unfold byte. lia.
Qed.

(** Every definite BER length below 2^64 is read. *)
Lemma length_reads : forall l e s rest, src_ok s -> ber_len l e -> l < 2 ^ 64 -> visible s = e ++ rest ->
  ber_length_lw s = LOk true l (s_skip (len e) s).
Proof.
  intros l e s rest H B L V. unfold ber_length_lw. destruct B as [(-> & R)|(ds & -> & R & B & ->)].
  - destruct (get_cons s l rest H V) as (G & O & W). rewrite G, land128 by (unfold byte; lia).
    destruct (Z.ltb_spec l 128); [|lia]. reflexivity.
  - destruct (get_cons s _ (ds ++ rest) H V) as (G & O & W). rewrite G, land128 by (unfold byte; lia).
    destruct (Z.ltb_spec (128 + len ds) 128); [lia|]. rewrite land127.
    rewrite mod128_add by lia.
    destruct (Z.eqb_spec (len ds) 0); [lia|]. unfold len at 1. rewrite Nat2Z.id.
    rewrite (length_loop_ok ds 0 (s_skip 1 s) rest) by (auto; lia). rewrite skip_skip by (pose proof (len_nonneg ds); lia).
    rewrite len_cons. reflexivity.
Qed.

(** Whatever is read as a definite length is one. *)
Lemma length_sound : forall l s s', src_ok s -> ber_length_lw s = LOk true l s' ->
  l < 2 ^ 64 /\ exists e rest, ber_len l e /\ visible s = e ++ rest /\ s' = s_skip (len e) s.
Proof.
  intros l s s' H E. unfold ber_length_lw in E. pose proof (visible_bytes s H) as Y.
  destruct (visible s) as [|b r] eqn:V; [rewrite get_nil in E by auto; discriminate|].
  destruct (get_cons s b r H V) as (G & O & W). rewrite G in E. inversion Y as [|? ? H2 H3]. rewrite land128 in E by auto. unfold byte in H2.
  destruct (Z.ltb_spec b 128).
  - injection E as -> <-. split; [lia|]. exists [l], r. split; [left; split; auto; lia|]. auto.
  - rewrite land127 in E. set (n := b mod 128) in *. assert (Hn : b = 128 + n).
    { unfold n. pose proof (Z.div_mod b 128). assert (b / 128 = 1) by (symmetry; apply (Z.div_unique b 128 1 (b - 128)); lia). lia. }
    assert (0 <= n < 128) by (apply Z.mod_pos_bound; lia).
    destruct (Z.eqb_spec n 0); [discriminate|].
    destruct (Nat.lt_ge_cases (length r) (Z.to_nat n)) as [S|S].
    { destruct (length_loop_short (Z.to_nat n) 0 (s_skip 1 s)) as [X|X]; auto; [rewrite W; auto|rewrite X in E; discriminate|rewrite X in E; discriminate]. }
    assert (V' : visible (s_skip 1 s) = firstn (Z.to_nat n) r ++ skipn (Z.to_nat n) r) by (rewrite firstn_skipn; auto).
    assert (Ln : length (firstn (Z.to_nat n) r) = Z.to_nat n) by (rewrite firstn_length; lia).
    assert (Lz : len (firstn (Z.to_nat n) r) = n) by (unfold len; lia).
    destruct (Z.lt_ge_cases (be_val (firstn (Z.to_nat n) r)) (2 ^ 64)) as [B|B].
    + pose proof (length_loop_ok _ 0 _ _ O V') as X. rewrite Ln in X. rewrite X in E by lia. injection E as <- <-.
      split; [lia|]. exists (b :: firstn (Z.to_nat n) r), (skipn (Z.to_nat n) r). split; [|split].
      * right. exists (firstn (Z.to_nat n) r). rewrite Lz. split; [f_equal; lia|]. split; [lia|]. split; [apply bytes_firstn; auto|lia].
      * cbn [app]. rewrite firstn_skipn. auto.
      * rewrite skip_skip by lia. rewrite len_cons. reflexivity.
    + pose proof (length_loop_big _ 0 _ _ O V') as X. rewrite Ln in X. rewrite X in E by lia. discriminate.
Qed.

(** No proper prefix of a BER length is read as a definite one. *)
Lemma length_prefix : forall l e s missing, src_ok s -> ber_len l e -> missing <> [] -> visible s ++ missing = e ->
  ber_length_lw s = LFalse \/ ber_length_lw s = LThrow.
Proof.
  intros l e s missing H B M V. unfold ber_length_lw.
  destruct (visible s) as [|b r] eqn:Vs; [rewrite get_nil by auto; auto|].
  destruct (get_cons s b r H Vs) as (G & O & W). rewrite G.
  destruct B as [(-> & R)|(ds & -> & R & B & ->)].
  - cbn in V. injection V as _ V. apply app_eq_nil in V. tauto.
  - cbn [app] in V. assert (Eb : b = 128 + len ds) by congruence. assert (Vr : r ++ missing = ds) by congruence. clear V. subst b. rename Vr into V. rewrite land128 by (unfold byte; lia).
    destruct (Z.ltb_spec (128 + len ds) 128); [lia|]. rewrite land127.
    rewrite mod128_add by lia.
    destruct (Z.eqb_spec (len ds) 0); [lia|]. apply length_loop_short; auto. rewrite W. subst ds.
    unfold len. rewrite Nat2Z.id, app_length. destruct missing; [congruence|cbn [length]; lia].
Qed.

(* ------------------------------------------------------------------------- tag, length, contents *)

Lemma skip_0 : forall s, s_skip 0 s = s.
Proof.
  intros [i fr]. unfold s_skip. cbn [s_in s_frames]. f_equal. rewrite <- (map_id fr) at 2. apply map_ext.
  intros [l|]; cbn; auto. f_equal. lia.
Qed.

Lemma size_mod : forall sz l, 0 <= sz -> 0 <= l < 2 ^ sz -> (l mod 2 ^ sz =? l) = true.
Proof. intros. apply Z.eqb_eq. apply Z.mod_small. auto. Qed.

Lemma header : forall tag le c rest s, src_ok s -> ber_len (len c) le -> len c < 2 ^ 64 -> visible s = tag :: le ++ c ++ rest ->
  exists s1 s2, s_get s = Some (tag, s1) /\ ber_length_lw s1 = LOk true (len c) s2 /\
    s2 = s_skip (len (tag :: le)) s /\ src_ok s2 /\ visible s2 = c ++ rest.
Proof.
  intros tag le c rest s H B L V. destruct (get_cons s tag (le ++ c ++ rest) H V) as (G & O & W).
  exists (s_skip 1 s), (s_skip (len (tag :: le)) s). split; auto.
  rewrite (length_reads (len c) le (s_skip 1 s) (c ++ rest)) by auto.
  pose proof (len_nonneg le). rewrite skip_skip, <- len_cons with (x := tag) by lia. split; auto. split; auto.
  apply visible_skip_app; auto.
Qed.

Lemma header_sz : forall sz tag le c rest s, src_ok s -> 0 <= sz <= 64 -> ber_len (len c) le -> len c < 2 ^ sz -> visible s = tag :: le ++ c ++ rest ->
  exists s1 s2, s_get s = Some (tag, s1) /\ ber_length sz s1 = Some (true, len c, s2) /\
    s2 = s_skip (len (tag :: le)) s /\ src_ok s2 /\ visible s2 = c ++ rest.
Proof.
  intros sz tag le c rest s H Hs B L V. assert (2 ^ sz <= 2 ^ 64) by (apply Z.pow_le_mono_r; lia).
  destruct (header tag le c rest s) as (s1 & s2 & A1 & A2 & A3); auto; [lia|]. exists s1, s2. split; auto. split; auto.
  unfold ber_length. rewrite A2, size_mod; auto; [lia|]. pose proof (len_nonneg c). lia.
Qed.

Lemma header_sound : forall b s s1 l s2, src_ok s -> s_get s = Some (b, s1) -> ber_length_lw s1 = LOk true l s2 ->
  exists le rest, ber_len l le /\ l < 2 ^ 64 /\ 0 <= l /\ visible s = b :: le ++ rest /\ s2 = s_skip (len (b :: le)) s /\ src_ok s2 /\ visible s2 = rest.
Proof.
  intros b s s1 l s2 H G E. destruct (visible s) as [|x r] eqn:V; [rewrite get_nil in G by auto; discriminate|].
  destruct (get_cons s x r H V) as (G' & O & W). rewrite G' in G. injection G as -> <-.
  destruct (length_sound l (s_skip 1 s) s2 O E) as (L & le & rest & B & V2 & ->). exists le, rest. split; auto. split; auto.
  split. { destruct B as [(_ & B)|(ds & _ & _ & B & ->)]; [lia|]. apply be_val_bounds; auto. }
  pose proof (len_nonneg le). rewrite skip_skip, len_cons by lia. rewrite W in V2. rewrite V2 in V. clear W. split; [rewrite V2; auto|]. split; auto.
  rewrite <- len_cons with (x := b). apply visible_skip_app; auto.
Qed.

Lemma ber_length_lw_of : forall sz s d l s', ber_length sz s = Some (d, l, s') -> ber_length_lw s = LOk d l s' /\ (l mod 2 ^ sz = l).
Proof.
  intros sz s d l s' E. unfold ber_length in E. destruct (ber_length_lw s) as [| |d' l' s'']; try discriminate.
  destruct (Z.eqb_spec (l' mod 2 ^ sz) l'); [|discriminate]. injection E as -> -> ->. auto.
Qed.

Lemma header_prefix : forall tag le c missing s, src_ok s -> ber_len (len c) le -> len c < 2 ^ 64 -> missing <> [] -> visible s ++ missing = tag :: le ++ c ->
  s_get s = None \/
  exists s1, s_get s = Some (tag, s1) /\
    (ber_length_lw s1 = LFalse \/ ber_length_lw s1 = LThrow \/
     exists s2, ber_length_lw s1 = LOk true (len c) s2 /\ s2 = s_skip (len (tag :: le)) s /\ src_ok s2 /\ s_count s2 < len c).
Proof.
  intros tag le c missing s H B L M V. destruct (visible s) as [|b r] eqn:Vs; [left; apply get_nil; auto|right].
  assert (Eb : b = tag) by (cbn in V; congruence). assert (V' : r ++ missing = le ++ c) by (cbn in V; congruence). subst b. clear V.
  destruct (get_cons s tag r H Vs) as (G & O & W). exists (s_skip 1 s). split; auto.
  destruct (Nat.lt_ge_cases (length r) (length le)) as [S|S].
  - assert (X : ber_length_lw (s_skip 1 s) = LFalse \/ ber_length_lw (s_skip 1 s) = LThrow); [|tauto].
    apply (length_prefix (len c) le (s_skip 1 s) (skipn (length r) le)); auto.
    + intro E. pose proof (f_equal (@length Z) E) as F. rewrite skipn_length in F. cbn in F. lia.
    + rewrite W. pose proof (f_equal (firstn (length r)) V') as F. rewrite firstn_app_exact in F.
      rewrite firstn_app_le in F by lia. rewrite F at 1. apply firstn_skipn.
  - right. right. pose proof (f_equal (firstn (length le)) V') as F. rewrite firstn_app_exact, firstn_app_le in F by lia.
    assert (Vr : r = le ++ skipn (length le) r) by (rewrite <- F at 1; symmetry; apply firstn_skipn).
    exists (s_skip (len (tag :: le)) s). rewrite (length_reads (len c) le (s_skip 1 s) (skipn (length le) r)); auto; [|congruence].
    pose proof (len_nonneg le). rewrite skip_skip, <- len_cons with (x := tag) by lia. split; auto. split; auto.
    destruct (visible_skip_app s (tag :: le) (skipn (length le) r)) as (O2 & V2); auto. { rewrite Vs. cbn. congruence. }
    split; auto. rewrite <- len_visible, V2 by auto. rewrite Vr, <- app_assoc in V'. apply app_inv_head in V'.
    rewrite <- V', len_app. pose proof (len_pos missing M). lia.
Qed.

(* ------------------------------------------------------------------------- strings *)

Lemma string_reads : forall sz tag str le, 0 <= sz <= 64 -> ber_len (len str) le -> len str < 2 ^ sz ->
  reads_back (ber_string sz tag) str (tag :: le ++ str).
Proof.
  intros sz tag str le Hs B L s rest H V. assert (V' : visible s = tag :: le ++ str ++ rest) by (rewrite V; cbn; rewrite <- app_assoc; auto).
  destruct (header_sz sz tag le str rest s H Hs B L V') as (s1 & s2 & G & E & S2 & O & W).
  unfold ber_string. rewrite G, Z.eqb_refl, E. pose proof (len_visible s2 O) as C. rewrite W, len_app in C. pose proof (len_nonneg rest).
  destruct (Z.ltb_spec (s_count s2) (len str)); [lia|]. rewrite (getn_app s2 str rest O W). fold (len str). rewrite Z.eqb_refl.
  rewrite S2. pose proof (len_nonneg (tag :: le)). pose proof (len_nonneg str). rewrite skip_skip by auto.
  rewrite <- len_app. cbn [app]. split; auto. apply visible_skip_app; auto.
Qed.

Lemma string_prefix : forall sz tag str le, 0 <= sz <= 64 -> ber_len (len str) le -> len str < 2 ^ sz ->
  refuses_prefixes (ber_string sz tag) (tag :: le ++ str).
Proof.
  intros sz tag str le Hs B L s missing H M V. assert (2 ^ sz <= 2 ^ 64) by (apply Z.pow_le_mono_r; lia).
  destruct (header_prefix tag le str missing s) as [G|(s1 & G & X)]; auto; try lia; unfold ber_string; rewrite G; auto.
  rewrite Z.eqb_refl. unfold ber_length. destruct X as [X|[X|(s2 & X & _ & _ & C)]]; rewrite X; auto.
  pose proof (len_nonneg str). rewrite size_mod by lia. destruct (Z.ltb_spec (s_count s2) (len str)); auto; lia.
Qed.

Lemma string_sound : forall sz tag s str s', src_ok s -> ber_string sz tag s = Some (str, s') ->
  exists le rest, ber_len (len str) le /\ visible s = (tag :: le ++ str) ++ rest /\ s' = s_skip (len (tag :: le ++ str)) s.
Proof.
  intros sz tag s str s' H E. unfold ber_string in E. destruct (s_get s) as [(b & s1)|] eqn:G; [|discriminate].
  destruct (Z.eqb_spec b tag); [subst b|discriminate]. destruct (ber_length sz s1) as [((d & l) & s2)|] eqn:X; [|discriminate].
  destruct d; [|discriminate]. destruct (ber_length_lw_of _ _ _ _ _ X) as (Y & _).
  destruct (header_sound tag s s1 l s2 H G Y) as (le & rest & B & _ & L0 & V & S2 & O & W).
  destruct (Z.ltb_spec (s_count s2) l); [discriminate|].
  assert (C : s_count s2 = len rest) by (rewrite <- len_visible, W; auto).
  assert (R : rest = firstn (Z.to_nat l) rest ++ skipn (Z.to_nat l) rest) by (rewrite firstn_skipn; auto).
  assert (Ln : len (firstn (Z.to_nat l) rest) = l) by (unfold len in *; rewrite firstn_length; lia).
  pose proof (getn_app s2 (firstn (Z.to_nat l) rest) (skipn (Z.to_nat l) rest) O ltac:(congruence)) as GN. rewrite Ln in GN. rewrite GN in E.
  fold (len (firstn (Z.to_nat l) rest)) in E. rewrite Ln, Z.eqb_refl in E. injection E as <- <-.
  exists le, (skipn (Z.to_nat l) rest). rewrite Ln. split; auto. split.
  - rewrite V. cbn [app]. rewrite <- app_assoc, <- R. reflexivity.
  - rewrite S2, skip_skip by (try lia; apply len_nonneg). f_equal. change (tag :: le ++ firstn (Z.to_nat l) rest) with ((tag :: le) ++ firstn (Z.to_nat l) rest).
    rewrite len_app, Ln. reflexivity.
Qed.

Lemma der_string_is : forall tag str, len str < 2 ^ 64 -> der_object tag str (der_string tag str) /\
  exists le, ber_len (len str) le /\ der_string tag str = tag :: le ++ str.
Proof.
  intros tag str L. pose proof (len_nonneg str). destruct (der_length_spec (len str)) as (D & _); [lia|]. split.
  - exists (der_length (len str)). auto.
  - exists (der_length (len str)). split; [apply der_len_ber; auto; lia|reflexivity].
Qed.

(* ------------------------------------------------------------------------- null *)

Lemma null_reads : forall sz, 0 <= sz <= 64 -> reads_back (ber_null sz) tt der_null.
Proof.
  intros sz Hs s rest H V. assert (B : ber_len (len []) [0]) by (left; split; auto; rewrite len_nil; lia).
  assert (P : 0 < 2 ^ sz) by (apply Z.pow_pos_nonneg; lia).
  destruct (header_sz sz TAG_NULL [0] [] rest s H Hs B P V) as (s1 & s2 & G & E & S2 & O & W).
  unfold ber_null. rewrite G. cbn [Z.eqb]. change (TAG_NULL =? TAG_NULL) with true. rewrite E. change (len []) with 0. cbv iota.
  rewrite S2. split; auto. apply visible_skip_app; auto.
Qed.
Lemma null_prefix : forall sz, 0 <= sz <= 64 -> refuses_prefixes (ber_null sz) der_null.
Proof.
  intros sz Hs s missing H M V. assert (B : ber_len (len []) [0]) by (left; split; auto; rewrite len_nil; lia).
  assert (P : 0 < 2 ^ sz) by (apply Z.pow_pos_nonneg; lia).
  destruct (header_prefix TAG_NULL [0] [] missing s H B eq_refl M V) as [G|(s1 & G & X)]; auto; unfold ber_null; rewrite G; auto.
  change (TAG_NULL =? TAG_NULL) with true. unfold ber_length.
  destruct X as [X|[X|(s2 & X & _ & O & C)]]; rewrite X; auto. pose proof (count_bounds s2 O). rewrite len_nil in C. lia.
Qed.

(* ------------------------------------------------------------------------- bit strings *)

Lemma bit_string_reads : forall sz str unused le, 0 <= sz <= 64 -> 0 <= unused <= 7 -> ber_len (len (unused :: str)) le -> len (unused :: str) < 2 ^ sz ->
  reads_back (ber_bit_string sz) (str, unused) (BIT_STRING :: le ++ unused :: str).
Proof.
  intros sz str unused le Hs U B L s rest H V.
  assert (V' : visible s = BIT_STRING :: le ++ (unused :: str) ++ rest) by (rewrite V; cbn [app]; rewrite <- app_assoc; auto).
  destruct (header_sz sz _ le _ rest s H Hs B L V') as (s1 & s2 & G & E & S2 & O & W).
  unfold ber_bit_string. rewrite G, Z.eqb_refl, E. pose proof (len_visible s2 O) as C. rewrite W, len_app in C. pose proof (len_nonneg rest). pose proof (len_nonneg str).
  rewrite len_cons in *. destruct (Z.eqb_spec (1 + len str) 0); [lia|]. destruct (Z.ltb_spec (s_count s2) (1 + len str)); [lia|].
  destruct (get_cons s2 unused (str ++ rest) O W) as (G2 & O2 & W2). rewrite G2. destruct (Z.ltb_spec 7 unused); [lia|].
  replace (1 + len str - 1) with (len str) by lia. rewrite (getn_app _ str rest O2 W2). fold (len str). rewrite Z.eqb_refl.
  rewrite S2. pose proof (len_nonneg le). rewrite !skip_skip by (rewrite ?len_cons; lia).
  split; [|apply visible_skip_app; auto]. repeat f_equal. rewrite !len_cons, len_app, len_cons; lia.
Qed.

Lemma bit_string_prefix : forall sz str unused le, 0 <= sz <= 64 -> ber_len (len (unused :: str)) le -> len (unused :: str) < 2 ^ sz ->
  refuses_prefixes (ber_bit_string sz) (BIT_STRING :: le ++ unused :: str).
Proof.
  intros sz str unused le Hs B L s missing H M V. assert (2 ^ sz <= 2 ^ 64) by (apply Z.pow_le_mono_r; lia).
  destruct (header_prefix _ le _ missing s H B ltac:(lia) M V) as [G|(s1 & G & X)]; unfold ber_bit_string; rewrite G; auto.
  rewrite Z.eqb_refl. unfold ber_length. destruct X as [X|[X|(s2 & X & _ & _ & C)]]; rewrite X; auto.
  rewrite size_mod by (pose proof (len_nonneg (unused :: str)); lia). destruct (_ =? 0); auto.
  destruct (Z.ltb_spec (s_count s2) (len (unused :: str))); auto; lia.
Qed.

(* ------------------------------------------------------------------------- unsigned *)

Lemma be_val_0 : forall r, be_val (0 :: r) = be_val r.
Proof. intros. change (0 :: r) with ([0] ++ r). rewrite be_val_app. change (be_val [0]) with 0. lia. Qed.

Lemma be_val_lead : forall x r, bytes (x :: r) -> x <> 0 -> 256 ^ Z.of_nat (length r) <= be_val (x :: r).
Proof.
  intros x r B N. inversion B as [|? ? X R]. unfold byte in X. change (x :: r) with ([x] ++ r). rewrite be_val_app. change (be_val [x]) with x.
  pose proof (be_val_bounds r R). assert (0 < 256 ^ Z.of_nat (length r)) by (apply Z.pow_pos_nonneg; lia). nia.
Qed.

Lemma strip_lead_spec : forall b, bytes b -> b <> [] ->
  let c := strip_lead b in bytes c /\ c <> [] /\ be_val c = be_val b /\ (length c <= length b)%nat /\ (hd 0 c <> 0 \/ c = [0]).
Proof.
  induction b as [|x r IH]; intros B N; [congruence|]. cbn [strip_lead]. inversion B as [|? ? X R]. destruct r as [|y r].
  - split; auto. split; auto. split; auto. split; auto. cbn. destruct (Z.eq_dec x 0); [right; subst; auto|left; auto].
  - destruct (Z.eqb_spec x 0) as [->|E].
    + destruct (IH R ltac:(congruence)) as (A1 & A2 & A3 & A4 & A5). split; auto. split; auto. split; [rewrite A3, be_val_0; auto|]. split; auto. cbn [length] in *. lia.
    + repeat split; auto.
Qed.

Lemma drop_zeros_spec : forall n b, bytes b ->
  let p := drop_zeros n b in bytes p /\ be_val p = be_val b /\ ((length p <= n)%nat \/ 256 ^ Z.of_nat n <= be_val b).
Proof.
  induction b as [|x r IH]; intros B; cbn [drop_zeros].
  - split; auto. split; auto. left. cbn. lia.
  - inversion B as [|? ? X R]. destruct (Nat.ltb_spec n (length (x :: r))); cbn [andb].
    + destruct (Z.eqb_spec x 0) as [->|E].
      * destruct (IH R) as (A1 & A2 & A3). split; auto.
      * split; auto. split; auto. right. pose proof (be_val_lead x r B E). cbn [length] in *.
        assert (256 ^ Z.of_nat n <= 256 ^ Z.of_nat (length r)) by (apply Z.pow_le_mono_r; lia). lia.
    + split; auto.
Qed.

Lemma unsigned_fold : forall n p acc, bytes p -> 0 <= acc -> acc * 256 ^ Z.of_nat (length p) + be_val p < 2 ^ (8 * Z.of_nat n) ->
  fold_left (fun w b => Z.lor (Z.shiftl w 8 mod 2 ^ (8 * Z.of_nat n)) b) p acc = acc * 256 ^ Z.of_nat (length p) + be_val p.
Proof.
  induction p as [|x r IH]; intros acc B A L.
  - cbn [fold_left length]. change (be_val []) with 0. change (256 ^ Z.of_nat 0) with 1. lia.
  - inversion B as [|? ? X R]. cbn [fold_left]. change (x :: r) with ([x] ++ r) in L. rewrite be_val_app in L. change (be_val [x]) with x in L.
    cbn [app] in L. rewrite <- pow256_succ || idtac. cbn [length] in *. rewrite Nat2Z.inj_succ, Z.pow_succ_r in L by lia.
    assert (P : 0 < 256 ^ Z.of_nat (length r)) by (apply Z.pow_pos_nonneg; lia). pose proof (be_val_bounds r R). unfold byte in X.
    rewrite Z.mod_small.
    + rewrite lor_add by lia. change (2 ^ 8) with 256. rewrite IH; auto; [|lia|lia].
      change (x :: r) with ([x] ++ r). rewrite be_val_app. change (be_val [x]) with x. rewrite Nat2Z.inj_succ, Z.pow_succ_r by lia. ring.
    + rewrite Z.shiftl_mul_pow2 by lia. change (2 ^ 8) with 256. nia.
Qed.

(** Everything the unsigned decoder accepts and refuses once the header is read. *)
Lemma unsigned_reads : forall sz n tag minv maxv c le, 0 <= sz <= 64 -> bytes c -> ber_len (len c) le -> len c < 2 ^ sz ->
  (tag = BOOLEAN -> len c = 1) -> (tag = INTEGER \/ tag = ENUMERATED -> c <> []) ->
  be_val c < 256 ^ Z.of_nat n -> minv <= be_val c <= maxv ->
  reads_back (ber_unsigned sz n tag minv maxv) (be_val c) (tag :: le ++ c).
Proof.
  intros sz n tag minv maxv c le Hs Y B L HB HI N R s rest H V.
  assert (V' : visible s = tag :: le ++ c ++ rest) by (rewrite V; cbn [app]; rewrite <- app_assoc; auto).
  destruct (header_sz sz _ le _ rest s H Hs B L V') as (s1 & s2 & G & E & S2 & O & W).
  unfold ber_unsigned. rewrite G, Z.eqb_refl, E. pose proof (len_visible s2 O) as C. rewrite W, len_app in C. pose proof (len_nonneg rest). pose proof (len_nonneg c).
  destruct (Z.ltb_spec (s_count s2) (len c)); [lia|].
  replace ((tag =? BOOLEAN) && negb (len c =? 1)) with false.
  2:{ destruct (Z.eqb_spec tag BOOLEAN); auto. rewrite (HB e). reflexivity. }
  replace (((tag =? INTEGER) || (tag =? ENUMERATED)) && (len c =? 0)) with false.
  2:{ destruct (Z.eqb_spec (len c) 0) as [E0|]; [|symmetry; apply andb_false_r]. apply len_0 in E0.
      destruct (Z.eqb_spec tag INTEGER); [destruct HI; auto|]. destruct (Z.eqb_spec tag ENUMERATED); [destruct HI; auto|]. reflexivity. }
  rewrite (getn_app s2 c rest O W). fold (len c). rewrite Z.eqb_refl. cbn [negb].
  destruct (drop_zeros_spec n c Y) as (P1 & P2 & [P3|P3]); [|lia]. destruct (Nat.ltb_spec n (length (drop_zeros n c))); [lia|].
  rewrite unsigned_fold; auto; [|lia|].
  2:{ rewrite P2. rewrite Z.pow_mul_r by lia. change (2 ^ 8) with 256. lia. }
  rewrite P2, Z.mul_0_l, Z.add_0_l. destruct (Z.ltb_spec (be_val c) minv); [lia|]. destruct (Z.ltb_spec maxv (be_val c)); [lia|]. cbn [orb].
  rewrite S2. pose proof (len_nonneg le). rewrite !skip_skip by (rewrite ?len_cons; lia).
  replace (len (tag :: le) + len c) with (len (tag :: le ++ c)) by (rewrite !len_cons, len_app; lia).
  split; auto. apply visible_skip_app; auto.
Qed.

Lemma unsigned_prefix : forall sz n tag minv maxv c le, 0 <= sz <= 64 -> ber_len (len c) le -> len c < 2 ^ sz ->
  refuses_prefixes (ber_unsigned sz n tag minv maxv) (tag :: le ++ c).
Proof.
  intros sz n tag minv maxv c le Hs B L s missing H M V. assert (2 ^ sz <= 2 ^ 64) by (apply Z.pow_le_mono_r; lia).
  destruct (header_prefix _ le _ missing s H B ltac:(lia) M V) as [G|(s1 & G & X)]; unfold ber_unsigned; rewrite G; auto.
  rewrite Z.eqb_refl. unfold ber_length. destruct X as [X|[X|(s2 & X & _ & _ & C)]]; rewrite X; auto.
  rewrite size_mod by (pose proof (len_nonneg c); lia).
  destruct (Z.ltb_spec (s_count s2) (len c)); auto; lia.
Qed.

Lemma unsigned_sound : forall sz n tag minv maxv s w s', src_ok s -> ber_unsigned sz n tag minv maxv s = Some (w, s') ->
  exists le c rest, ber_len (len c) le /\ visible s = (tag :: le ++ c) ++ rest /\ s' = s_skip (len (tag :: le ++ c)) s /\
    w = be_val c /\ w < 256 ^ Z.of_nat n /\ minv <= w <= maxv /\ (tag = BOOLEAN -> len c = 1) /\ (tag = INTEGER \/ tag = ENUMERATED -> c <> []).
Proof.
  intros sz n tag minv maxv s w s' H E. unfold ber_unsigned in E. destruct (s_get s) as [(b & s1)|] eqn:G; [|discriminate].
  destruct (Z.eqb_spec b tag); [subst b|discriminate]. destruct (ber_length sz s1) as [((d & l) & s2)|] eqn:X; [|discriminate].
  destruct d; [|discriminate]. destruct (ber_length_lw_of _ _ _ _ _ X) as (Y & _).
  destruct (header_sound tag s s1 l s2 H G Y) as (le & rest & B & _ & L0 & V & S2 & O & W).
  destruct (Z.ltb_spec (s_count s2) l); [discriminate|].
  destruct ((tag =? BOOLEAN) && negb (l =? 1)) eqn:EB; [discriminate|].
  destruct (((tag =? INTEGER) || (tag =? ENUMERATED)) && (l =? 0)) eqn:EI; [discriminate|].
  assert (C : s_count s2 = len rest) by (rewrite <- len_visible, W; auto).
  assert (R : rest = firstn (Z.to_nat l) rest ++ skipn (Z.to_nat l) rest) by (rewrite firstn_skipn; auto).
  set (c := firstn (Z.to_nat l) rest) in *.
  assert (Ln : len c = l) by (unfold c, len in *; rewrite firstn_length; lia).
  pose proof (getn_app s2 c (skipn (Z.to_nat l) rest) O ltac:(congruence)) as GN. rewrite Ln in GN. rewrite GN in E.
  fold (len c) in E. rewrite Ln, Z.eqb_refl in E. cbn [negb] in E.
  assert (Yc : bytes c). { pose proof (visible_bytes s2 O) as Q. rewrite W in Q. apply bytes_firstn; auto. }
  destruct (drop_zeros_spec n c Yc) as (P1 & P2 & P3). cbv zeta in *. set (p := drop_zeros n c) in *.
  destruct (Nat.ltb_spec n (length p)); [discriminate|].
  pose proof (be_val_bounds p P1) as Bp. assert (Pn : 256 ^ Z.of_nat (length p) <= 256 ^ Z.of_nat n) by (apply Z.pow_le_mono_r; lia).
  rewrite unsigned_fold in E; auto; [|lia|].
  2:{ rewrite Z.pow_mul_r by lia. change (2 ^ 8) with 256. lia. }
  rewrite Z.mul_0_l, Z.add_0_l, P2 in E.
  destruct (Z.ltb_spec (be_val c) minv); [discriminate|]. destruct (Z.ltb_spec maxv (be_val c)); [discriminate|]. cbn [orb] in E. injection E as <- <-.
  exists le, c, (skipn (Z.to_nat l) rest). rewrite Ln. split; auto. split; [|split; [|split; [|split; [|split; [|split]]]]]; auto; try lia.
  - rewrite V. cbn [app]. rewrite <- app_assoc, <- R. reflexivity.
  - rewrite S2, skip_skip by (try lia; apply len_nonneg). f_equal. rewrite !len_cons, len_app. lia.
  - intros T E0. rewrite E0, len_nil in Ln. rewrite <- Ln in EI. rewrite Z.eqb_refl, andb_true_r in EI. apply orb_false_iff in EI. destruct EI as [I1 I2].
    apply Z.eqb_neq in I1. apply Z.eqb_neq in I2. tauto.
Qed.

Lemma der_unsigned_is : forall n tag w, (0 < n)%nat -> Z.of_nat n < 100 -> tag <> BOOLEAN -> 0 <= w < 256 ^ Z.of_nat n ->
  exists c, der_unsigned_contents w c /\ len c <= Z.of_nat n + 1 /\ der_unsigned n tag w = der_string tag c.
Proof.
  intros n tag w N N1 T W. unfold der_unsigned. destruct (Z.eqb_spec tag BOOLEAN); [congruence|]. rewrite put_bytes_be.
  destruct (strip_lead_spec (be_bytes n w)) as (A1 & A2 & A3 & A4 & A5).
  { apply be_bytes_bytes. } { intro E. pose proof (f_equal (@length Z) E) as F. rewrite be_bytes_length in F. cbn in F. lia. }
  cbv zeta in *. rewrite be_val_be_bytes in A3 by auto. rewrite be_bytes_length in A4.
  set (b := strip_lead (be_bytes n w)) in *. assert (Hb : byte (hd 0 b)) by (destruct b; [congruence|inversion A1; auto]).
  rewrite land128 by auto. destruct (Z.ltb_spec (hd 0 b) 128).
  - exists b. split; [|split]; [|unfold len; lia|reflexivity]. repeat split; auto.
    intros x r E. rewrite E in *. destruct A5 as [A5|A5]; [cbn in A5; congruence|discriminate].
  - exists (0 :: b). split; [|split]; [|rewrite len_cons; unfold len; lia|reflexivity]. split; [constructor; auto; unfold byte; lia|].
    split; [congruence|]. split; [rewrite be_val_0; auto|]. split; [cbn; lia|]. intros x r E. injection E as E. rewrite E in *. cbn in *. lia.
Qed.

Lemma contents_len : forall w c, der_unsigned_contents w c -> bytes c /\ c <> [] /\ be_val c = w.
Proof. intros w c (A & B & C & _). auto. Qed.

(* ------------------------------------------------------------------------- object identifiers *)

Lemma base128_acc : forall c a, fold_left (fun a b => a * 128 + b mod 128) c a = a * 128 ^ len c + base128 c.
Proof.
  unfold base128. induction c as [|x c IH]; intros a.
  - cbn [fold_left]. rewrite len_nil. change (128 ^ 0) with 1. lia.
  - cbn [fold_left]. rewrite IH, (IH (0 * 128 + x mod 128)). rewrite len_cons, Z.pow_add_r by (try lia; apply len_nonneg).
    change (128 ^ 1) with 128. ring.
Qed.
Lemma base128_cons : forall x c, base128 (x :: c) = x mod 128 * 128 ^ len c + base128 c.
Proof. intros. unfold base128 at 1. cbn [fold_left]. rewrite base128_acc. ring. Qed.
Lemma base128_bounds : forall c, 0 <= base128 c < 128 ^ len c.
Proof.
  induction c as [|x c IH]; [unfold base128; cbn; rewrite len_nil; change (128 ^ 0) with 1; lia|].
  rewrite base128_cons, len_cons, Z.pow_add_r by (try lia; apply len_nonneg). change (128 ^ 1) with 128.
  pose proof (Z.mod_pos_bound x 128). nia.
Qed.

Lemma lor128 : forall x, 0 <= x < 128 -> Z.lor 128 x = 128 + x.
Proof. intros. change 128 with (Z.shiftl 1 7) at 1. rewrite lor_add by lia. reflexivity. Qed.

Lemma group_is : forall v k, 0 <= k -> Z.land (Z.shiftr v (7 * k)) 127 = v / 128 ^ k mod 128.
Proof. intros. rewrite land127, Z.shiftr_div_pow2, Z.pow_mul_r by lia. reflexivity. Qed.

Lemma oid_groups_spec : forall n v, 0 <= v ->
  Forall (fun b => 128 <= b < 256) (oid_groups n v) /\ len (oid_groups n v) = Z.of_nat n /\
  base128 (oid_groups n v) = v / 128 mod 128 ^ Z.of_nat n.
Proof.
  intros n v V. induction n as [|n IH].
  - split; [constructor|]. split; auto. change (128 ^ Z.of_nat 0) with 1. rewrite Z.mod_1_r. reflexivity.
  - destruct IH as (I1 & I2 & I3). cbn [oid_groups]. rewrite group_is by lia.
    pose proof (Z.mod_pos_bound (v / 128 ^ Z.of_nat (S n)) 128 ltac:(lia)) as Q.
    rewrite lor128 by lia. split; [constructor; auto; lia|]. split; [rewrite len_cons; lia|].
    rewrite base128_cons, I2, I3, mod128_add by lia. assert (P : 0 < 128 ^ Z.of_nat n) by (apply Z.pow_pos_nonneg; lia).
    rewrite Nat2Z.inj_succ, Z.pow_succ_r by lia. rewrite (Z.mul_comm 128 (128 ^ Z.of_nat n)).
    rewrite Z.rem_mul_r by lia. rewrite Z.div_div by lia. rewrite (Z.mul_comm 128 (128 ^ Z.of_nat n)). ring.
Qed.

Lemma oid_encode_value_spec : forall v, 0 <= v < 2 ^ 32 -> subidentifier v (oid_encode_value v) /\ len (oid_encode_value v) <= 5.
Proof.
  intros v V. unfold oid_encode_value. set (p := bit_precision 32 v). set (i := (Z.max 7 p + 6) / 7 * 7 - 7).
  set (n := (Z.max 7 p + 6) / 7 - 1).
  assert (Hp : 0 <= p <= 32 /\ v < 2 ^ p /\ (v <> 0 -> 2 ^ (p - 1) <= v /\ 1 <= p)).
  { destruct (Z.eq_dec v 0) as [->|N].
    - unfold p, bit_precision. cbn [Z.eqb]. change (2 ^ 0) with 1. lia.
    - destruct (bit_precision_spec v) as (A & B); [lia|]. fold p in A, B. cbv zeta in *. lia. }
  destruct Hp as (P1 & P2 & P3). pose proof (Z.div_mod (Z.max 7 p + 6) 7 ltac:(lia)) as D. pose proof (Z.mod_pos_bound (Z.max 7 p + 6) 7 ltac:(lia)) as M.
  assert (Hi : i / 7 = n) by (unfold i, n; replace ((Z.max 7 p + 6) / 7 * 7 - 7) with (((Z.max 7 p + 6) / 7 - 1) * 7) by lia; apply Z.div_mul; lia).
  assert (Hn : 0 <= n <= 4) by (unfold n; lia). rewrite Hi.
  destruct (oid_groups_spec (Z.to_nat n) v) as (G1 & G2 & G3); [lia|]. rewrite Z2Nat.id in G2, G3 by lia.
  assert (Up : v < 128 ^ (n + 1)).
  { change 128 with (2 ^ 7). rewrite <- Z.pow_mul_r by lia. assert (2 ^ p <= 2 ^ (7 * (n + 1))) by (apply Z.pow_le_mono_r; unfold n; lia). lia. }
  rewrite land127. pose proof (Z.mod_pos_bound v 128 ltac:(lia)) as Q. split.
  - exists (oid_groups (Z.to_nat n) v), (v mod 128). split; auto. split; auto. split; auto. split.
    + unfold base128. rewrite fold_left_app. fold (base128 (oid_groups (Z.to_nat n) v)). rewrite G3. cbn [fold_left].
      rewrite Z.mod_mod by lia. rewrite Z.mod_small. { pose proof (Z.div_mod v 128 ltac:(lia)). lia. }
      split; [apply Z.div_pos; lia|]. apply Z.div_lt_upper_bound; [lia|]. rewrite <- Z.pow_succ_r by lia. unfold Z.succ. auto.
    + destruct (Z.to_nat n) as [|m] eqn:En; [cbn [oid_groups app hd]; lia|]. cbn [oid_groups app hd]. rewrite group_is by lia.
      replace (Z.of_nat (S m)) with n by lia.
      assert (N0 : v <> 0 /\ 7 * n <= p - 1). { assert (7 < p) by (unfold n in *; lia). split; [|unfold n; lia]. intros ->. unfold p, bit_precision in *. cbn in *. lia. }
      destruct N0 as (N0 & N1). destruct (P3 N0) as (P4 & P5).
      assert (Lo : 128 ^ n <= v). { change 128 with (2 ^ 7). rewrite <- Z.pow_mul_r by lia. assert (2 ^ (7 * n) <= 2 ^ (p - 1)) by (apply Z.pow_le_mono_r; lia). lia. }
      assert (Pn : 0 < 128 ^ n) by (apply Z.pow_pos_nonneg; lia).
      assert (1 <= v / 128 ^ n < 128).
      { split; [apply Z.div_le_lower_bound; lia|]. apply Z.div_lt_upper_bound; [lia|]. rewrite Z.pow_add_r in Up by lia. change (128 ^ 1) with 128 in Up. lia. }
      rewrite Z.mod_small by lia. rewrite lor128 by lia. lia.
  - rewrite len_app, G2. change (len [v mod 128]) with 1. lia.
Qed.

Lemma shiftr25 : forall a, 0 <= a -> (Z.shiftr a 25 =? 0) = (a <? 2 ^ 25).
Proof.
  intros. rewrite Z.shiftr_div_pow2 by lia. destruct (Z.ltb_spec a (2 ^ 25)).
  - rewrite Z.div_small by lia. reflexivity.
  - apply Z.eqb_neq. intro E. apply Z.div_small_iff in E; [|discriminate]. lia.
Qed.

Lemma oid_step : forall a b, 0 <= a < 2 ^ 25 -> (Z.shiftl a 7 mod 2 ^ 32 + Z.land b 127) mod 2 ^ 32 = a * 128 + b mod 128.
Proof.
  intros a b A. rewrite land127, Z.shiftl_mul_pow2 by lia. change (2 ^ 7) with 128. pose proof (Z.mod_pos_bound b 128 ltac:(lia)).
  change (2 ^ 32) with (128 * 2 ^ 25). rewrite (Z.mod_small (a * 128)) by lia. apply Z.mod_small. lia.
Qed.

Lemma oid_loop_reads : forall lead x fuel i acc s rest, src_ok s -> visible s = (lead ++ [x]) ++ rest ->
  Forall (fun b => 128 <= b < 256) lead -> 0 <= x < 128 -> 0 <= acc -> acc * 128 ^ len (lead ++ [x]) + base128 (lead ++ [x]) < 2 ^ 32 ->
  (length lead < fuel)%nat ->
  oid_decode_loop fuel i acc s = Some (acc * 128 ^ len (lead ++ [x]) + base128 (lead ++ [x]), i + len (lead ++ [x]), s_skip (len (lead ++ [x])) s).
Proof.
  induction lead as [|g lead IH]; intros x fuel i acc s rest H V F X A L Fu; (destruct fuel as [|f]; [cbn [length] in Fu; lia|]); cbn [oid_decode_loop].
  - cbn [app] in *. destruct (get_cons s x rest H V) as (G & O & W). rewrite G.
    change (len [x]) with 1 in *. change (128 ^ 1) with 128 in *. unfold base128 in *. cbn [fold_left] in *.
    pose proof (Z.mod_pos_bound x 128 ltac:(lia)). assert (acc < 2 ^ 25) by (change (2 ^ 32) with (128 * 2 ^ 25) in L; lia).
    rewrite shiftr25 by lia. destruct (Z.ltb_spec acc (2 ^ 25)); [cbn [negb]|lia]. rewrite oid_step, land128 by (unfold byte; lia).
    destruct (Z.ltb_spec x 128); [|lia]. repeat f_equal; lia.
  - cbn [app] in *. inversion F as [|? ? Fg Fl]. destruct (get_cons s g _ H V) as (G & O & W). rewrite G.
    rewrite base128_cons, len_cons in *. pose proof (base128_bounds (lead ++ [x])) as B. pose proof (len_nonneg (lead ++ [x])) as Ln.
    assert (P : 0 < 128 ^ len (lead ++ [x])) by (apply Z.pow_pos_nonneg; lia).
    rewrite (Z.pow_add_r 128 1) in * by lia. change (128 ^ 1) with 128 in *. pose proof (Z.mod_pos_bound g 128 ltac:(lia)).
    assert (L1 : 128 <= 128 * 128 ^ len (lead ++ [x])) by lia.
    assert (acc < 2 ^ 25). { change (2 ^ 32) with (128 * 2 ^ 25) in L. nia. }
    rewrite shiftr25 by lia. destruct (Z.ltb_spec acc (2 ^ 25)); [cbn [negb]|lia]. rewrite oid_step, land128 by (unfold byte; lia).
    destruct (Z.ltb_spec g 128); [lia|]. rewrite (IH x f (i + 1) (acc * 128 + g mod 128) (s_skip 1 s) rest); auto; try lia.
    2:{ cbn [length] in Fu. lia. }
    rewrite skip_skip by lia. f_equal. f_equal. f_equal; ring. 
Qed.

Lemma subid_reads : forall v c s rest, src_ok s -> subidentifier v c -> v < 2 ^ 32 -> visible s = c ++ rest ->
  oid_decode_value s = Some (v, len c, s_skip (len c) s).
Proof.
  intros v c s rest H (lead & x & -> & F & X & <- & _) L V. unfold oid_decode_value.
  rewrite (oid_loop_reads lead x _ 0 0 s rest); auto; try lia.
  - pose proof (len_visible s H) as C. pose proof (count_bounds s H). rewrite V, !len_app in C. unfold len in *. cbn [length] in C. lia.
Qed.

Lemma oid_loop_sound : forall fuel i acc s v n s', src_ok s -> oid_decode_loop fuel i acc s = Some (v, n, s') ->
  exists k, 1 <= k <= s_count s /\ n = i + k /\ s' = s_skip k s.
Proof.
  induction fuel as [|f IH]; intros i acc s v n s' H E; [discriminate|]. cbn [oid_decode_loop] in E.
  destruct (visible s) as [|b r] eqn:V; [rewrite get_nil in E by auto; discriminate|].
  pose proof (len_visible s H) as C. rewrite V, len_cons in C. pose proof (len_nonneg r).
  destruct (get_cons s b r H V) as (G & O & W). rewrite G in E. destruct (negb _); [discriminate|]. destruct (_ =? 0).
  - injection E as _ <- <-. exists 1. split; [lia|auto].
  - destruct (IH _ _ _ _ _ _ O E) as (k & K & -> & ->). rewrite skip_count in K by (auto; lia). exists (1 + k). rewrite skip_skip by lia. split; [lia|split; [lia|auto]].
Qed.

Lemma oid_values_sound : forall fuel l s vs s', src_ok s -> 0 <= l -> oid_values fuel l s = Some (vs, s') -> l <= s_count s /\ s' = s_skip l s.
Proof.
  induction fuel as [|f IH]; intros l s vs s' H L E; cbn [oid_values] in E; destruct (Z.ltb_spec 0 l); try discriminate.
  1,3: injection E as _ <-; replace l with 0 by lia; rewrite skip_0; pose proof (count_bounds s H); split; auto; lia.
  unfold oid_decode_value in E. destruct (oid_decode_loop _ 0 0 s) as [((v & n) & s1)|] eqn:D; [|discriminate].
  destruct (oid_loop_sound _ _ _ _ _ _ _ H D) as (k & K & -> & ->). rewrite Z.add_0_l in *. destruct (Z.ltb_spec l k); [discriminate|].
  destruct (oid_values f (l - k) _) as [(vs' & s2)|] eqn:X; [|discriminate]. injection E as _ <-.
  apply IH in X; [|apply skip_ok; auto; lia|lia]. destruct X as (X & ->). rewrite skip_count in X by (auto; lia). rewrite skip_skip by lia. split; [lia|f_equal; lia].
Qed.

Lemma oid_values_reads : forall vs s rest fuel, src_ok s -> Forall (fun v => 0 <= v < 2 ^ 32) vs -> visible s = concat (map oid_encode_value vs) ++ rest ->
  (length vs <= fuel)%nat ->
  oid_values fuel (len (concat (map oid_encode_value vs))) s = Some (vs, s_skip (len (concat (map oid_encode_value vs))) s).
Proof.
  induction vs as [|v vs IH]; intros s rest fuel H F V Fu.
  - cbn [map concat]. rewrite len_nil, skip_0. destruct fuel; reflexivity.
  - inversion F as [|? ? Fv Fr]. cbn [map concat] in *. destruct (oid_encode_value_spec v Fv) as (S1 & _).
    destruct fuel as [|f]; [cbn [length] in Fu; lia|]. cbn [oid_values]. rewrite <- app_assoc in V.
    pose proof S1 as S1'. destruct S1' as (lead & y & E & _). assert (P : 0 < len (oid_encode_value v)). { rewrite E, len_app. pose proof (len_nonneg lead). change (len [y]) with 1. lia. }
    rewrite len_app. pose proof (len_nonneg (concat (map oid_encode_value vs))).
    destruct (Z.ltb_spec 0 (len (oid_encode_value v) + len (concat (map oid_encode_value vs)))); [|lia].
    rewrite (subid_reads v _ s (concat (map oid_encode_value vs) ++ rest) H S1) by (auto; lia).
    destruct (Z.ltb_spec (len (oid_encode_value v) + len (concat (map oid_encode_value vs))) (len (oid_encode_value v))); [lia|].
    replace (len (oid_encode_value v) + len (concat (map oid_encode_value vs)) - len (oid_encode_value v)) with (len (concat (map oid_encode_value vs))) by lia.
    destruct (visible_skip_app s _ _ H V) as (O & W). rewrite (IH _ rest) by (auto; cbn [length] in Fu; lia).
    rewrite skip_skip by lia. reflexivity.
Qed.

(** The encoding of an object identifier, and what its decoder does with it: first arc at most 2, second below 40. *)
Definition plain_oid (o : list Z) : Prop := exists a b r, o = a :: b :: r /\ 0 <= a <= 2 /\ 0 <= b < 40 /\ Forall (fun v => 0 <= v < 2 ^ 32) r.
Definition oid_body (o : list Z) : list Z := (nth 0 o 0 * 40 + nth 1 o 0) :: concat (map oid_encode_value (skipn 2 o)).

Lemma oid_encode_is : forall o, plain_oid o -> oid_encode o = der_string OBJECT_IDENTIFIER (oid_body o).
Proof.
  intros o (a & b & r & -> & A & B & F). unfold oid_encode, oid_body, der_string. cbn [nth skipn].
  replace (((a * 40 mod 2 ^ 32 + b) mod 2 ^ 32) mod 256) with (a * 40 + b); auto.
  rewrite (Z.mod_small (a * 40)) by lia. rewrite (Z.mod_small (a * 40 + b) (2 ^ 32)) by lia. rewrite Z.mod_small; lia.
Qed.

Lemma map_len_ge : forall vs, Forall (fun v => 0 <= v < 2 ^ 32) vs -> (length vs <= length (concat (map oid_encode_value vs)))%nat.
Proof.
  induction vs as [|v vs IH]; intros F; cbn [map concat length]; [lia|]. inversion F as [|? ? Fv Fr]. destruct (oid_encode_value_spec v Fv) as ((lead & y & E & _) & _).
  rewrite app_length, E, app_length. cbn [length]. specialize (IH Fr). lia.
Qed.

Lemma oid_reads : forall sz o le, 0 <= sz <= 64 -> plain_oid o -> ber_len (len (oid_body o)) le -> len (oid_body o) < 2 ^ sz ->
  reads_back (oid_decode sz) o (OBJECT_IDENTIFIER :: le ++ oid_body o).
Proof.
  intros sz o le Hs P B L s rest H V.
  assert (V' : visible s = OBJECT_IDENTIFIER :: le ++ oid_body o ++ rest) by (rewrite V; cbn [app]; rewrite <- app_assoc; auto).
  destruct (header_sz sz _ le _ rest s H Hs B L V') as (s1 & s2 & G & E & S2 & O & W).
  unfold oid_decode. rewrite G, Z.eqb_refl, E. destruct P as (a & b & r & -> & A & Bb & F). unfold oid_body in *. cbn [nth skipn] in *.
  set (body := concat (map oid_encode_value r)) in *. pose proof (len_nonneg body). rewrite len_cons in *. destruct (Z.ltb_spec (1 + len body) 1); [lia|].
  destruct (get_cons s2 _ (body ++ rest) O W) as (G2 & O2 & W2). rewrite G2.
  replace (1 + len body - 1) with (len body) by lia. unfold body at 1.
  rewrite (oid_values_reads r _ rest) ; auto.
  2:{ pose proof (map_len_ge r F) as ML. fold body in ML. pose proof (len_visible _ O2) as C. pose proof (count_bounds _ O2). rewrite W2, len_app in C. unfold len in *. lia. }
  fold body. rewrite S2. pose proof (len_nonneg le). rewrite !skip_skip by (rewrite ?len_cons; lia).
  split; [|apply visible_skip_app; auto].
  replace ((a * 40 + b) / 40) with a by (apply (Z.div_unique _ _ _ b); lia).
  replace ((a * 40 + b) mod 40) with b by (apply (Z.mod_unique _ _ a); lia).
  repeat f_equal. rewrite !len_cons, len_app, len_cons. lia.
Qed.

Lemma oid_prefix : forall sz body le, 0 <= sz <= 64 -> ber_len (len body) le -> len body < 2 ^ sz ->
  refuses_prefixes (oid_decode sz) (OBJECT_IDENTIFIER :: le ++ body).
Proof.
  intros sz c le Hs B L s missing H M V. assert (2 ^ sz <= 2 ^ 64) by (apply Z.pow_le_mono_r; lia).
  destruct (header_prefix _ le _ missing s H B ltac:(lia) M V) as [G|(s1 & G & X)]; unfold oid_decode; rewrite G; auto.
  rewrite Z.eqb_refl. unfold ber_length. destruct X as [X|[X|(s2 & X & _ & O & C)]]; rewrite X; auto.
  rewrite size_mod by (pose proof (len_nonneg c); lia). destruct (Z.ltb_spec (len c) 1); auto.
  destruct (visible s2) as [|b r] eqn:Vs; [rewrite get_nil by auto; auto|]. destruct (get_cons s2 b r O Vs) as (G2 & O2 & W2). rewrite G2.
  destruct (oid_values _ (len c - 1) _) as [(vs & s4)|] eqn:Y; auto. exfalso.
  pose proof (len_visible s2 O) as C2. rewrite Vs, len_cons in C2. pose proof (len_nonneg r).
  apply oid_values_sound in Y; [|auto|lia]. rewrite skip_count in Y by (auto; lia). lia.
Qed.

Lemma oid_sound : forall sz s o s', src_ok s -> oid_decode sz s = Some (o, s') ->
  exists le body rest, ber_len (len body) le /\ visible s = (OBJECT_IDENTIFIER :: le ++ body) ++ rest /\ s' = s_skip (len (OBJECT_IDENTIFIER :: le ++ body)) s.
Proof.
  intros sz s o s' H E. unfold oid_decode in E. destruct (s_get s) as [(b & s1)|] eqn:G; [|discriminate].
  destruct (Z.eqb_spec b OBJECT_IDENTIFIER); [subst b|discriminate]. destruct (ber_length sz s1) as [((d & l) & s2)|] eqn:X; [|discriminate].
  destruct d; [|discriminate]. destruct (ber_length_lw_of _ _ _ _ _ X) as (Y & _).
  destruct (header_sound _ s s1 l s2 H G Y) as (le & rest & B & _ & L0 & V & S2 & O & W).
  destruct (Z.ltb_spec l 1); [discriminate|].
  destruct (visible s2) as [|b r] eqn:Vs; [rewrite get_nil in E by auto; discriminate|]. destruct (get_cons s2 b r O Vs) as (G2 & O2 & W2). rewrite G2 in E.
  destruct (oid_values _ (l - 1) _) as [(vs & s4)|] eqn:Z4; [|discriminate]. injection E as _ <-.
  pose proof (len_visible s2 O) as C2. rewrite Vs, len_cons in C2. pose proof (len_nonneg r).
  apply oid_values_sound in Z4; [|auto|lia]. rewrite skip_count in Z4 by (auto; lia). destruct Z4 as (C & ->).
  exists le, (firstn (Z.to_nat l) rest), (skipn (Z.to_nat l) rest).
  assert (Ln : len (firstn (Z.to_nat l) rest) = l) by (rewrite <- W; unfold len in *; rewrite firstn_length; cbn [length]; lia).
  rewrite Ln. split; auto. split. { rewrite V. cbn [app]. rewrite <- app_assoc, firstn_skipn. reflexivity. }
  pose proof (len_nonneg le). rewrite S2, !skip_skip by (rewrite ?len_cons; lia). f_equal. rewrite !len_cons, len_app. lia.
Qed.
