From Coq Require Import ZArith List Bool Arith Lia Permutation.
From Verif Require Import Base Gf2Spec Gf32Model Gf32Proofs Gf32FieldProofs InterpModel InterpSpec InterpGfProofs IdaModel IdaSpec IdaProofs IdaSinkProofs IdaRawProofs IdaShareProofs.
Import ListNotations.

Lemma skipn_app_n : forall (A : Type) n (a b : list A), length a = n -> skipn n (a ++ b) = b. Proof. intros A n a b <-. apply skipn_app_exact. Qed.
(* ---------------------------------------------------------------- PaddingRemover *)
Lemma zero_run_zeros : forall n s, zero_run (repeat 0%Z n ++ s) = (n + zero_run s)%nat. Proof. induction n as [|n IH]; intros s; cbn; [reflexivity|]. rewrite IH. reflexivity. Qed.
Lemma zero_run_split : forall s, s = repeat 0%Z (zero_run s) ++ skipn (zero_run s) s.
Proof. induction s as [|a s IH]; [reflexivity|]. cbn [zero_run]. destruct (Z.eqb_spec a 0) as [->|N]; [|reflexivity]. cbn [repeat app skipn]. f_equal. exact IH. Qed.
Lemma zero_run_next : forall s c r, skipn (zero_run s) s = c :: r -> c <> 0%Z.
Proof. induction s as [|a s IH]; intros c r H; [discriminate|]. cbn [zero_run] in H. destruct (Z.eqb_spec a 0) as [->|N]; [apply (IH c r H)|]. cbn in H. congruence. Qed.
Lemma zero_run_le : forall s, (zero_run s <= length s)%nat. Proof. induction s as [|a s IH]; cbn; [lia|]. destruct (a =? 0)%Z; lia. Qed.
Lemma rev_repeat : forall n, rev (repeat 0%Z n) = repeat 0%Z n.
Proof. induction n as [|n IH]; [reflexivity|]. cbn. rewrite IH. change [0%Z] with (repeat 0%Z 1). rewrite <- repeat_app, Nat.add_1_r. reflexivity. Qed.
Lemma rev_padded : forall m n, rev (padded m n) = repeat 0%Z n ++ 1%Z :: rev m. Proof. intros. unfold padded. rewrite rev_app_distr. cbn [rev]. rewrite rev_repeat, <- app_assoc. reflexivity. Qed.
Lemma padded_length : forall m n, length (padded m n) = (length m + 1 + n)%nat. Proof. intros. unfold padded. rewrite app_length. cbn [length]. rewrite repeat_length. lia. Qed.
Lemma tail_padded : forall st m n, padrm_tail st (padded m n) = (PadRm true n, m).
Proof.
  intros st m n. unfold padrm_tail. rewrite rev_padded, zero_run_zeros. cbn [zero_run Z.eqb Pos.eqb]. rewrite padded_length, Nat.add_0_r. replace (length m + 1 + n - n)%nat with (length m + 1)%nat by lia.
  destruct (Nat.eqb_spec (length m + 1) 0); [lia|]. replace (length m + 1 - 1)%nat with (length m) by lia. unfold padded. rewrite app_nth2, Nat.sub_diag by lia. cbn [nth negb andb Z.eqb Pos.eqb].
  rewrite firstn_app_exact by reflexivity. f_equal. f_equal. lia.
Qed.
Lemma tail_cases : forall st s, (ends_like_padding s /\ exists m n, s = padded m n /\ padrm_tail st s = (PadRm true n, m)) \/ (~ ends_like_padding s /\ padrm_tail st s = (st, s)).
Proof.
  intros st s. set (z := zero_run (rev s)). pose proof (zero_run_split (rev s)) as SP. fold z in SP. pose proof (zero_run_le (rev s)) as ZL. fold z in ZL. rewrite rev_length in ZL.
  destruct (skipn z (rev s)) as [|c r] eqn:K.
  - right. rewrite app_nil_r in SP. apply (f_equal (@rev Z)) in SP. rewrite rev_involutive, rev_repeat in SP. split.
    + intros (m & n & E). rewrite E in SP. assert (Q : In 1%Z (repeat 0%Z z)) by (rewrite <- SP; unfold padded; apply in_or_app; right; cbn; auto). apply repeat_spec in Q. discriminate.
    + unfold padrm_tail. fold z. assert (LE : length s = z) by (rewrite SP; apply repeat_length). rewrite LE, Nat.sub_diag. reflexivity.
  - apply (f_equal (@rev Z)) in SP. rewrite rev_involutive, rev_app_distr in SP. cbn [rev] in SP. rewrite rev_repeat, <- app_assoc in SP. cbn [app] in SP. destruct (Z.eq_dec c 1) as [->|N].
    + left. assert (E : s = padded (rev r) z) by exact SP. split; [exists (rev r), z; exact E|]. exists (rev r), z. split; [exact E|]. rewrite E. apply tail_padded.
    + right. split.
      * intros (m & n & E). assert (Q : rev s = repeat 0%Z n ++ 1%Z :: rev m) by (rewrite E; apply rev_padded). assert (Hz : z = n) by (unfold z; rewrite Q, zero_run_zeros; cbn; lia). rewrite Q, Hz, skipn_app_n in K by apply repeat_length. congruence.
      * unfold padrm_tail. fold z. assert (LS : length s = (length (rev r) + 1 + z)%nat) by (rewrite SP at 1; rewrite app_length; cbn [length]; rewrite repeat_length; lia).
        assert (NX : nth (length s - z - 1) s 0%Z = c). { rewrite LS. replace (length (rev r) + 1 + z - z - 1)%nat with (length (rev r)) by lia. rewrite SP. rewrite app_nth2, Nat.sub_diag by lia. reflexivity. }
        rewrite NX. destruct (Z.eqb_spec c 1); [contradiction|]. rewrite andb_false_r. reflexivity.
Qed.
Lemma padded_inj : forall m n m' n', padded m n = padded m' n' -> m = m' /\ n = n'.
Proof. intros m n m' n' E. pose proof (tail_padded padrm_init m n) as A. rewrite E, tail_padded in A. injection A as -> ->. auto. Qed.
Lemma zeros_repeat : forall s, zeros s -> s = repeat 0%Z (length s). Proof. induction 1 as [|a s H _ IH]; [reflexivity|]. cbn. rewrite H at 1. f_equal. exact IH. Qed.
Lemma zeros_app : forall a b, zeros (a ++ b) <-> zeros a /\ zeros b. Proof. intros. apply Forall_app. Qed.
Lemma repeat_zeros : forall n, zeros (repeat 0%Z n). Proof. intros. apply Forall_forall. intros x H. apply repeat_spec in H. auto. Qed.

Lemma padrm_all_run : forall ps st, padrm_all st ps = snd (padrm_run st ps).
Proof. induction ps as [|p ps IH]; intros st; [reflexivity|]. cbn [padrm_all padrm_run]. destruct (padrm_put st p) as [st1 o]. rewrite IH. destruct (padrm_run st1 ps). reflexivity. Qed.
Definition pinv (ps : list (list Z)) (st : padrm) (o : list Z) : Prop :=
  if pr_possible st then concat ps = padded o (pr_zeros st) else concat ps = o /\ (~ ends_like_padding (concat ps) \/ bad_split ps).
Lemma ends_app : forall a b, ~ zeros b -> ends_like_padding (a ++ b) -> ends_like_padding b.
Proof.
  intros a b NZ (m & n & E). exists (skipn (length a) m), n. destruct (Nat.le_gt_cases (length a) (length m)) as [L|L].
  - apply (f_equal (skipn (length a))) in E. rewrite skipn_app_exact in E by reflexivity. rewrite E. unfold padded. rewrite skipn_app. replace (length a - length m)%nat with 0%nat by lia. reflexivity.
  - exfalso. apply NZ. apply (f_equal (skipn (length a))) in E. rewrite skipn_app_exact in E by reflexivity. rewrite E. unfold padded. rewrite skipn_app, skipn_all2 by lia. cbn [app]. destruct (length a - length m)%nat as [|d] eqn:D; [lia|]. cbn [skipn].
    apply Forall_forall. intros x Hx. assert (In x (repeat 0%Z n)). { rewrite <- (firstn_skipn d (repeat 0%Z n)). apply in_or_app. auto. } apply repeat_spec in H. auto.
Qed.
Lemma ends_app_r : forall a b, ends_like_padding b -> ends_like_padding (a ++ b). Proof. intros a b (m & n & ->). exists (a ++ m), n. unfold padded. rewrite app_assoc. reflexivity. Qed.
Lemma pinv_step : forall ps st o p, pinv ps st o -> let '(st1, o1) := padrm_put st p in pinv (ps ++ [p]) st1 (o ++ o1).
Proof.
  intros ps st o p H. unfold padrm_put, pinv in *. assert (CC : concat (ps ++ [p]) = concat ps ++ p) by (rewrite concat_app; cbn; rewrite app_nil_r; reflexivity).
  destruct st as [ps0 z]. cbn [pr_possible pr_zeros] in *. destruct ps0.
  - pose proof (zero_run_split p) as SP. destruct (skipn (zero_run p) p) as [|c r] eqn:K.
    + cbn [pr_possible pr_zeros]. rewrite CC, H, app_nil_r. rewrite app_nil_r in SP. rewrite SP at 1. unfold padded. rewrite <- app_assoc. cbn [app]. rewrite <- repeat_app. reflexivity.
    + pose proof (zero_run_next p c r K) as Nc. remember (zero_run p) as l eqn:El. clear El K. destruct (tail_cases (PadRm false 0) r) as [(EL & m & n & E & T)|(NE & T)]; rewrite T; cbn [pr_possible pr_zeros]; rewrite CC, H.
      * rewrite SP, E. unfold padded. rewrite repeat_app. repeat rewrite <- app_assoc. cbn [app]. repeat rewrite <- app_assoc. reflexivity.
      * split; [rewrite SP at 1; unfold padded; rewrite repeat_app; repeat rewrite <- app_assoc; cbn [app]; repeat rewrite <- app_assoc; reflexivity|].
        destruct (Forall_dec (fun b => b = 0%Z) (fun b => Z.eq_dec b 0) r) as [ZR|ZR].
        -- destruct (Z.eq_dec c 1) as [->|N1].
           ++ right. exists ps, l, (length r), []. split; [|split; [exists o, z; exact H|constructor]]. f_equal. f_equal. rewrite SP at 1. unfold padded. cbn [app]. rewrite <- (zeros_repeat r ZR). reflexivity.
           ++ left. intros Q. rewrite SP in Q. apply ends_app in Q.
              ** apply (ends_app (repeat 0%Z l) (c :: r)) in Q; [|intros Z0; apply Forall_inv in Z0; auto]. destruct Q as (m & n & E). destruct m as [|u m]; unfold padded in E; cbn [app] in E; [congruence|]. injection E as _ E. apply NE. exists m, n. exact E.
              ** intros Z0. apply zeros_app in Z0. destruct Z0 as [_ Z0]. apply Forall_inv in Z0. auto.
        -- left. intros Q. apply NE. rewrite SP in Q. change (c :: r) with ([c] ++ r) in Q. rewrite !app_assoc in Q. apply ends_app in Q; auto.
  - destruct H as [H HB]. destruct (tail_cases (PadRm false z) p) as [(EL & m & n & E & T)|(NE & T)]; rewrite T; cbn [pr_possible pr_zeros]; rewrite CC, H.
    + rewrite E. unfold padded. rewrite app_assoc. reflexivity.
    + split; [reflexivity|]. destruct (Forall_dec (fun b => b = 0%Z) (fun b => Z.eq_dec b 0) p) as [ZP|ZP].
      * destruct HB as [HB|(bf & b & c & af & B1 & B2 & B3)].
        -- left. intros (m & n & E). apply HB. rewrite H. rewrite (zeros_repeat p ZP) in E. apply (f_equal (@rev Z)) in E. rewrite rev_app_distr, rev_repeat, rev_padded in E.
           assert (L : (length p <= n)%nat). { pose proof (f_equal zero_run E) as Q. rewrite !zero_run_zeros in Q. cbn in Q. lia. }
           replace n with (length p + (n - length p))%nat in E by lia. rewrite repeat_app, <- app_assoc in E. apply app_inv_head in E. exists m, (n - length p)%nat. apply (f_equal (@rev Z)) in E. rewrite rev_involutive in E. rewrite E. rewrite <- rev_padded, rev_involutive. reflexivity.
        -- right. exists bf, b, c, (af ++ [p]). split; [rewrite B1, <- app_assoc; reflexivity|]. split; [exact B2|]. rewrite concat_app. apply zeros_app. split; [exact B3|]. cbn. rewrite app_nil_r. exact ZP.
      * left. intros Q. apply NE. apply ends_app in Q; auto.
Qed.
Lemma pinv_run : forall qs ps st o, pinv ps st o -> let '(st1, o1) := padrm_run st qs in pinv (ps ++ qs) st1 (o ++ o1).
Proof.
  induction qs as [|q qs IH]; intros ps st o H; cbn [padrm_run]; [rewrite !app_nil_r; exact H|]. pose proof (pinv_step ps st o q H) as S1. destruct (padrm_put st q) as [st1 o1]. specialize (IH _ _ _ S1). destruct (padrm_run st1 qs) as [st2 o2]. rewrite <- app_assoc in IH. cbn [app] in IH. rewrite app_assoc. exact IH.
Qed.
Lemma pinv_init : pinv [] padrm_init [].
Proof. split; [reflexivity|]. left. intros (m & n & E). destruct m; discriminate. Qed.
Theorem padding_removed : forall ps msg n, concat ps = padded msg n -> ~ bad_split ps -> padrm_run padrm_init ps = (PadRm true n, msg).
Proof.
  intros ps msg n E NB. pose proof (pinv_run ps [] padrm_init [] pinv_init) as H. destruct (padrm_run padrm_init ps) as [[b z] o]. cbn [app] in H. unfold pinv in H. cbn [pr_possible pr_zeros] in H. destruct b.
  - rewrite E in H. apply padded_inj in H. destruct H as [-> ->]. reflexivity.
  - destruct H as [_ [H|H]]; [|contradiction]. exfalso. apply H. exists msg, n. exact E.
Qed.
Theorem single_piece : forall msg n, padrm_all padrm_init [padded msg n] = msg.
Proof. intros. cbn [padrm_all padrm_put pr_possible padrm_init]. rewrite tail_padded. apply app_nil_r. Qed.
Theorem bad_two_pieces : forall m a b c, padrm_run padrm_init [padded m a; repeat 0%Z b ++ padded [] c] = (PadRm false 0, padded m a ++ repeat 0%Z b ++ padded [] c).
Proof.
  intros m a b c. cbn [padrm_run]. unfold padrm_put at 1. cbn [pr_possible padrm_init]. rewrite tail_padded. unfold padrm_put. cbn [pr_possible pr_zeros]. rewrite zero_run_zeros. unfold padded at 1. cbn [app zero_run Z.eqb Pos.eqb]. rewrite Nat.add_0_r.
  rewrite skipn_app_n by apply repeat_length. unfold padded at 1. cbn [app].
  destruct (tail_cases (PadRm false 0) (repeat 0%Z c)) as [((u & v & E) & _)|(_ & T)].
  - exfalso. assert (Q : In 1%Z (repeat 0%Z c)) by (rewrite E; unfold padded; apply in_or_app; right; cbn; auto). apply repeat_spec in Q. discriminate.
  - rewrite T. f_equal. rewrite app_nil_r. unfold padded. cbn [app zero_run Z.eqb Pos.eqb]. rewrite Nat.add_0_r, repeat_app. repeat rewrite <- app_assoc. reflexivity.
Qed.

(* ---------------------------------------------------------------- SecretRecovery *)
Lemma skipn_word_bytes : forall f K j, (j <= K)%nat -> skipn (4 * j) (word_bytes f 0 K) = word_bytes f j (K - j).
Proof. intros f K j H. replace K with (j + (K - j))%nat at 1 by lia. rewrite <- word_bytes_app. cbn [Nat.add]. apply skipn_app_n. apply word_bytes_length. Qed.
Lemma word_at_bytes : forall f K j, (forall i, is_word (f i)) -> word_at (word_bytes f 0 K) j = if Nat.ltb j K then f j else 0%Z.
Proof.
  intros f K j H. destruct (Nat.ltb_spec j K) as [L|L].
  - unfold word_at. rewrite skipn_word_bytes by lia. destruct (K - j)%nat as [|d] eqn:D; [lia|]. unfold word_bytes. cbn [seq map concat]. rewrite <- app_assoc.
    rewrite <- (be_bytes_length 4 (f j)) at 1. rewrite firstn_app_exact. apply be_val_be_bytes. exact (H j).
  - apply word_at_beyond. rewrite word_bytes_length. lia.
Qed.
Lemma word_bytes_bytes : forall f n k, bytes (word_bytes f k n).
Proof. intros f. induction n as [|n IH]; intros k; [constructor|]. unfold word_bytes in *. cbn [seq map concat]. apply bytes_app. split; [apply be_bytes_bytes|apply IH]. Qed.
Lemma word_bytes_ext : forall f g n k, (forall j, (k <= j < k + n)%nat -> f j = g j) -> word_bytes f k n = word_bytes g k n.
Proof. intros f g n k H. unfold word_bytes. f_equal. apply map_ext_in. intros j Hj. apply in_seq in Hj. rewrite H by lia. reflexivity. Qed.

Theorem recover_round : forall cut t prop ids (K : nat) pol qu pad calls, (1 <= t)%nat -> NoDup ids -> length ids = t -> Forall is_word ids -> one_message_each ids calls ->
  (forall j, (length (pol j) <= t)%nat /\ Forall is_word (pol j)) -> (forall c, In c ids -> stream c calls = word_bytes (fun j => gf_eval (pol j) c) 0 K) ->
  exists q e1, ida_run cut (KSecret pad) (Ida t [] 0 0 [secret_channel] [[]] qu prop) calls =
      Some (Ida t [] 0 0 [secret_channel] [[]] qu prop, e1 ++ (if pad then [IData None (padrm_all padrm_init (cut q))] else []) ++ (if (prop =? 0)%Z then [] else [IEnd None])) /\
    sent None e1 ++ q = word_bytes (fun j => gf_eval (pol j) secret_channel) 0 K /\ length q = (if pad then Nat.min 4 (4 * K) else 0%nat) /\ (forall c, ended c e1 = 0%nat).
Proof.
  intros cut t prop ids K pol qu pad calls Ht ND HL Wi HM HP HS. set (pol' := fun j => if Nat.ltb j K then pol j else []).
  assert (Ws : Forall is_word [secret_channel]) by (constructor; [unfold is_word, secret_channel; lia|constructor]).
  assert (EW : forall j c, is_word c -> is_word (gf_eval (pol j) c)). { intros j c Hc. apply (proj2 (is_word_iff _)). apply gf_eval_word; [apply Forall_is_word; apply HP|apply is_word_iff; auto]. }
  assert (HF : fits pol' t ids (fun c => stream c calls)).
  { intros j. unfold pol'. split; [|split].
    - destruct (Nat.ltb j K); [apply HP|cbn; lia].
    - destruct (Nat.ltb j K); [apply HP|constructor].
    - intros c Hc. rewrite (HS c Hc), word_at_bytes by (intros i; apply EW; rewrite Forall_forall in Wi; auto). destruct (Nat.ltb j K); reflexivity. }
  destruct (round_run cut (KSecret pad) t [secret_channel] prop ids Ht ND HL (fun c => stream c calls) (fun j o => gf_eval (pol' j) o) (fits_word pol' t ids _ _ Ht Wi Ws HF) calls ids (fun _ => []) (fun _ => false) [] 0%nat
    (Ida t [] 0 0 [secret_channel] [[]] qu prop)) as (n & gs & o & e1 & e2 & o' & H1 & H2 & H3 & H4 & H5); auto.
  - apply inv_start; auto.
  - intros c. tauto.
  - assert (HK : n = K).
    { cbn [Nat.add] in H5. rewrite H5. destruct ids as [|c0 ids]; [cbn in HL; lia|]. apply words_needed_is.
      - intros c Hc. rewrite HS, word_bytes_length by auto. lia.
      - destruct K; [auto|]. right. exists c0. split; [cbn; auto|]. rewrite HS, word_bytes_length by (cbn; auto). lia. }
    subst n. unfold st_of in H2. cbn [ia_oq ia_queue] in H2. destruct (snks_secret t [secret_channel] prop (fun j o => gf_eval (pol' j) o) secret_channel pad gs qu [] 0 K eq_refl) as (e & q & E1 & A1 & A2 & A3); [destruct pad; reflexivity|exact H4|].
    rewrite E1 in H2. assert (e1 = e /\ o = ([q], qu)) as [-> ->] by (split; congruence).
    exists q, e. rewrite H1. split; [|split; [|split; [exact A2|exact A3]]].
    + unfold snk_end in H3. destruct pad; cbn in H3; injection H3 as <- <-; [reflexivity|]. cbn [keep] in A2. destruct q; [reflexivity|discriminate].
    + rewrite A1. cbn [app]. apply word_bytes_ext. intros j Hj. unfold pol'. destruct (Nat.ltb_spec j K); [reflexivity|lia].
Qed.
Theorem recover_padded : forall cut t prop ids pol qu calls msg, (1 <= t)%nat -> NoDup ids -> length ids = t -> Forall is_word ids -> one_message_each ids calls -> bytes msg ->
  (forall w, length w = 4%nat -> cut w = [w]) ->
  (forall j, (length (pol j) <= t)%nat /\ Forall is_word (pol j) /\ gf_eval (pol j) secret_channel = word_at (pads true msg) j) ->
  (forall c, In c ids -> stream c calls = word_bytes (fun j => gf_eval (pol j) c) 0 (words_for (length (pads true msg)))) ->
  exists evs, ida_run cut (KSecret true) (Ida t [] 0 0 [secret_channel] [[]] qu prop) calls = Some (Ida t [] 0 0 [secret_channel] [[]] qu prop, evs) /\
    sent None evs = msg /\ ended None evs = (if (prop =? 0)%Z then 0%nat else 1%nat).
Proof.
  intros cut t prop ids pol qu calls msg Ht ND HL Wi HM HB Hcut HP HS. set (z := (3 - length msg mod 4)%nat). assert (PE : pads true msg = padded msg z) by reflexivity. rewrite PE in *.
  set (K := words_for (length (padded msg z))) in *.
  assert (LK : length (padded msg z) = (4 * K)%nat).
  { assert (E : length (padded msg z) = (4 * (length msg / 4 + 1))%nat) by (rewrite padded_length; unfold z; pose proof (Nat.div_mod_eq (length msg) 4); pose proof (Nat.mod_upper_bound (length msg) 4); lia).
    rewrite E. f_equal. symmetry. unfold K. rewrite E. apply words_for_spec. lia. }
  assert (K1 : (1 <= K)%nat) by (rewrite padded_length in LK; lia).
  destruct (recover_round cut t prop ids K pol qu true calls Ht ND HL Wi HM) as (q & e1 & R1 & R2 & R3 & R4); [intros j; destruct (HP j) as (P1 & P2 & _); auto|exact HS|].
  rewrite R1. eexists. split; [reflexivity|]. rewrite (word_bytes_ext _ (word_at (padded msg z))) in R2 by (intros; apply HP).
  rewrite word_bytes_words in R2 by (apply bytes_app; split; [exact HB|constructor; [unfold byte; lia|apply bytes_repeat0]]). change (4 * 0)%nat with 0%nat in R2. cbn [skipn] in R2.
  rewrite <- LK, firstn_app_exact in R2.
  replace (Nat.min 4 (4 * K)) with 4%nat in R3 by lia. rewrite (Hcut q R3).
  (* the last word *)
  assert (LS : length (sent None e1) = (length msg + 1 + z - 4)%nat) by (apply (f_equal (@length Z)) in R2; rewrite app_length, padded_length in R2; lia).
  assert (LM : (length (sent None e1) <= length msg)%nat) by (unfold z in *; lia).
  assert (EQ : q = padded (skipn (length (sent None e1)) msg) z) by (apply (f_equal (skipn (length (sent None e1)))) in R2; rewrite skipn_app_exact in R2; rewrite R2; unfold padded; rewrite skipn_app; replace (length (sent None e1) - length msg)%nat with 0%nat by lia; reflexivity).
  assert (ES : sent None e1 = firstn (length (sent None e1)) msg) by (apply (f_equal (firstn (length (sent None e1)))) in R2; rewrite firstn_app_exact in R2; rewrite R2 at 1; unfold padded; rewrite firstn_app; replace (length (sent None e1) - length msg)%nat with 0%nat by lia; apply app_nil_r).
  rewrite EQ, single_piece. rewrite !sent_app, !ended_app, R4. cbn [sent ended Nat.add app]. rewrite app_nil_r. split.
  - rewrite ES at 1. assert (SN : sent None (if (prop =? 0)%Z then [] else [IEnd None]) = []) by (destruct (prop =? 0)%Z; reflexivity). rewrite SN, app_nil_r. apply firstn_skipn.
  - destruct (prop =? 0)%Z; reflexivity.
Qed.
Theorem recover_unpadded : forall cut t prop ids pol qu calls msg, (1 <= t)%nat -> NoDup ids -> length ids = t -> Forall is_word ids -> one_message_each ids calls -> bytes msg ->
  (forall j, (length (pol j) <= t)%nat /\ Forall is_word (pol j) /\ gf_eval (pol j) secret_channel = word_at msg j) ->
  (forall c, In c ids -> stream c calls = word_bytes (fun j => gf_eval (pol j) c) 0 (words_for (length msg))) ->
  exists evs, ida_run cut (KSecret false) (Ida t [] 0 0 [secret_channel] [[]] qu prop) calls = Some (Ida t [] 0 0 [secret_channel] [[]] qu prop, evs) /\
    sent None evs = msg ++ repeat 0%Z (4 * words_for (length msg) - length msg) /\ ended None evs = (if (prop =? 0)%Z then 0%nat else 1%nat).
Proof.
  intros cut t prop ids pol qu calls msg Ht ND HL Wi HM HB HP HS. set (K := words_for (length msg)) in *.
  destruct (recover_round cut t prop ids K pol qu false calls Ht ND HL Wi HM) as (q & e1 & R1 & R2 & R3 & R4); [intros j; destruct (HP j) as (P1 & P2 & _); auto|exact HS|].
  rewrite R1. eexists. split; [reflexivity|]. rewrite (word_bytes_ext _ (word_at msg)) in R2 by (intros; apply HP). rewrite word_bytes_words in R2 by auto. destruct q; [|discriminate]. rewrite app_nil_r in R2.
  rewrite !sent_app, !ended_app, R4, R2. cbn [sent ended app Nat.add]. split; [|destruct (prop =? 0)%Z; reflexivity].
  assert (SN : sent None (if (prop =? 0)%Z then [] else [IEnd None]) = []) by (destruct (prop =? 0)%Z; reflexivity). rewrite SN, app_nil_r. change (4 * 0)%nat with 0%nat. cbn [skipn].
  destruct (proj1 (words_for_spec _ _) (eq_refl (words_for (length msg)))) as [Q _]. fold K in Q. 
  rewrite firstn_app, firstn_all2 by lia. f_equal. rewrite <- (firstn_all (repeat 0%Z (4 * K - length msg))), repeat_length. replace (4 * K)%nat with ((4 * K - length msg) + length msg)%nat at 2 by lia. rewrite repeat_app, firstn_app, repeat_length, Nat.sub_diag. cbn [firstn]. rewrite app_nil_r. reflexivity.
Qed.
