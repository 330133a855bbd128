(** Properties C01-C05: BaseN text codecs. *)
From Coq Require Import ZArith List Lia Bool Arith.
From Verif Require Import Base CodecModel CodecSpec CodecProofs.
Import ListNotations.
Local Open Scope Z_scope.

(** C04. For every history of messages, each cut in arbitrary chunks, the encoder emits per message
    exactly the positional encoding of the message's bit string. *)
Theorem C04_encoder_computes_positional_encoding :
  forall n alpha pad ms, (1 <= n <= 7)%nat -> Forall (fun m => bytes (message_of m)) ms ->
  exists s' tr, enc_run n alpha pad (enc_init n) (history_of ms) = Some (s', tr) /\
    messages_out [] tr = map (fun m => encode_spec n alpha pad (message_of m)) ms.
Proof.
  intros. destruct (enc_run_ok n alpha pad ms (enc_init n)) as [s' [tr [E [_ M]]]]; auto.
  apply enc_start_init. eauto.
Qed.

Example C04_example :
  encode_spec 6 (arr b64_std) (Some b64_pad) [77; 97] = [84; 87; 69; 61] /\
  encode_spec 5 (arr b32hex_upper) (Some b64_pad) [102] = [67; 79; 61; 61; 61; 61; 61; 61] /\
  encode_spec 3 (fun v => v) None [255; 0] = [7; 7; 6; 0; 0; 0].
Proof. vm_compute. auto. Qed.

(** The decoder likewise computes the re-cut bit string of the alphabet characters. *)
Theorem C04_decoder_computes_recut :
  forall n lookup ts, (1 <= n <= 7)%nat ->
  Forall (fun t => Forall (fun c => ~ (0 <= lookup c < 256) \/ 0 <= lookup c < 2 ^ Z.of_nat n) (message_of t)) ts ->
  exists s' tr, dec_run n lookup (dec_init n) (history_of ts) = (s', tr) /\
    messages_out [] tr = map (fun t => decode_spec n lookup (message_of t)) ts.
Proof.
  intros. destruct (dec_run_ok n lookup ts (dec_init n)) as [s' [tr [E [_ M]]]]; auto.
  apply dec_start_init. eauto.
Qed.

Example C04_decoder_example :
  messages_out [] (snd (dec_run 6 (arr b64_std_array) (dec_init 6) [([84; 87], false); ([69; 61], true); ([84;10;87;69],true)])) = [[77; 97]; [77; 97]].
Proof. vm_compute. reflexivity. Qed.

(** C02. Output depends on the messages only, not on the chunks. *)
Theorem C02_encoder_chunking_independent :
  forall n alpha pad ms ms', (1 <= n <= 7)%nat -> Forall (fun m => bytes (message_of m)) ms ->
  map message_of ms = map message_of ms' ->
  exists s tr s' tr', enc_run n alpha pad (enc_init n) (history_of ms) = Some (s, tr) /\
    enc_run n alpha pad (enc_init n) (history_of ms') = Some (s', tr') /\
    messages_out [] tr = messages_out [] tr'.
Proof.
  intros n alpha pad ms ms' Hn Hb E.
  assert (Hb' : Forall (fun m => bytes (message_of m)) ms').
  { rewrite <- (Forall_map message_of) in *. rewrite <- E. auto. }
  destruct (C04_encoder_computes_positional_encoding n alpha pad ms Hn Hb) as [s [tr [E1 M1]]].
  destruct (C04_encoder_computes_positional_encoding n alpha pad ms' Hn Hb') as [s' [tr' [E2 M2]]].
  exists s, tr, s', tr'. split; auto. split; auto. rewrite M1, M2.
  rewrite <- (map_map message_of (encode_spec n alpha pad) ms),
          <- (map_map message_of (encode_spec n alpha pad) ms'), E. reflexivity.
Qed.

(** For the decoder there is no condition at all on the table or on the text. *)
Theorem C02_decoder_chunking_independent :
  forall n lookup s ts ts', map message_of ts = map message_of ts' ->
  messages_out [] (snd (dec_run n lookup s (history_of ts))) = messages_out [] (snd (dec_run n lookup s (history_of ts'))).
Proof.
  intros. destruct (dec_run_all n lookup ts s) as [_ ->]. destruct (dec_run_all n lookup ts' s) as [_ ->].
  rewrite H. reflexivity.
Qed.

Theorem C02_grouper_chunking_independent :
  forall g ms ms', map message_of ms = map message_of ms' ->
  messages_out [] (snd (gr_run g 0 (history_of ms))) = messages_out [] (snd (gr_run g 0 (history_of ms'))).
Proof.
  intros g ms ms' E. destruct (gr_run_ok g ms) as [t1 [E1 M1]]. destruct (gr_run_ok g ms') as [t2 [E2 M2]].
  rewrite E1, E2. simpl. rewrite M1, M2.
  rewrite <- (map_map message_of (fun m => group_spec (gr_size g) (gr_sep g) m ++ gr_term g) ms),
          <- (map_map message_of (fun m => group_spec (gr_size g) (gr_sep g) m ++ gr_term g) ms'), E. reflexivity.
Qed.

Example C02_example :
  map message_of [([[1;2];[];[3]],[4;5]); ([],[9])] = map message_of [([[1];[2;3;4]],[5]); ([[9]],[])].
Proof. reflexivity. Qed.

(** C03. Two texts with the same subsequence of alphabet characters decode alike, for any table. *)
Theorem C03_decoder_ignores_foreign_characters :
  forall n lookup s ts ts',
  map (fun t => filter (fun c => (0 <=? lookup c) && (lookup c <? 256)) (message_of t)) ts =
  map (fun t => filter (fun c => (0 <=? lookup c) && (lookup c <? 256)) (message_of t)) ts' ->
  messages_out [] (snd (dec_run n lookup s (history_of ts))) = messages_out [] (snd (dec_run n lookup s (history_of ts'))).
Proof.
  intros n lookup s ts ts' E. destruct (dec_run_all n lookup ts s) as [_ ->]. destruct (dec_run_all n lookup ts' s) as [_ ->].
  assert (G : forall l s, dec_all n lookup s l = dec_all n lookup s (map (filter (fun c => (0 <=? lookup c) && (lookup c <? 256))) l)).
  { clear. induction l; intros; simpl; auto. unfold dec_one. rewrite <- dec_bytes_filter.
    destruct (dec_bytes n lookup s a) as [s1 o1]. destruct (dec_end s1) as [s2 o2]. rewrite IHl. reflexivity. }
  rewrite (G (map message_of ts)), (G (map message_of ts')), !map_map, E. reflexivity.
Qed.

Example C03_example :
  filter (fun c => (0 <=? arr hex_array c) && (arr hex_array c <? 256)) [52;32;49;10] =
  filter (fun c => (0 <=? arr hex_array c) && (arr hex_array c <? 256)) [52;49] /\
  messages_out [] (snd (dec_run 4 (arr hex_array) (dec_init 4) [([52;32;49;10], true)])) = [[65]].
Proof. vm_compute. auto. Qed.

(** C05. The Grouper inserts the separator exactly before every byte whose index in the message is a
    positive multiple of the group size, and appends the terminator. *)
Theorem C05_grouper_spec :
  forall g ms, exists tr, gr_run g 0 (history_of ms) = (0%nat, tr) /\
    messages_out [] tr = map (fun m => group_spec (gr_size g) (gr_sep g) (message_of m) ++ gr_term g) ms.
Proof. exact gr_run_ok. Qed.

(** Removing separators: any text filter that drops separator and terminator bytes and keeps the
    message bytes recovers the message. *)
Theorem C05_grouper_removable :
  forall (keep : Z -> bool) g m, forallb keep m = true -> forallb (fun c => negb (keep c)) (gr_sep g ++ gr_term g) = true ->
  filter keep (group_spec (gr_size g) (gr_sep g) m ++ gr_term g) = m.
Proof.
  intros keep g m Hm Hs. rewrite forallb_app in Hs. apply andb_true_iff in Hs. destruct Hs as [Hs Ht].
  assert (D : forall l, forallb (fun c => negb (keep c)) l = true -> filter keep l = []).
  { induction l; simpl; intros; auto. apply andb_true_iff in H. destruct H as [H1 H2].
    destruct (keep a); try discriminate. auto. }
  assert (K : forall l, forallb keep l = true -> filter keep l = l).
  { induction l; simpl; intros; auto. apply andb_true_iff in H. destruct H as [H1 H2]. rewrite H1. f_equal; auto. }
  rewrite filter_app, (D (gr_term g)) by auto. rewrite app_nil_r.
  pose (lookup := fun c => if keep c then c mod 256 else -1).
  unfold group_spec.
  assert (G : forall l pre, forallb keep l = true -> filter keep (concat (map (fun i => (if Nat.ltb 0 i && Nat.ltb 0 (gr_size g) && Nat.eqb (i mod gr_size g) 0 then gr_sep g else []) ++ [nth i (pre ++ l) 0]) (seq (length pre) (length l)))) = l).
  { clear m Hm. induction l; intros; simpl; auto. simpl in H. apply andb_true_iff in H. destruct H as [H1 H2].
    rewrite !filter_app.
    replace (filter keep (if Nat.ltb 0 (length pre) && Nat.ltb 0 (gr_size g) && Nat.eqb (length pre mod gr_size g) 0 then gr_sep g else [])) with (@nil Z)
      by (destruct (Nat.ltb 0 (length pre) && Nat.ltb 0 (gr_size g) && Nat.eqb (length pre mod gr_size g) 0); auto; symmetry; apply D; auto).
    rewrite app_nth2, Nat.sub_diag by lia. simpl. rewrite H1. simpl. f_equal.
    replace (S (length pre)) with (length (pre ++ [a])) by (rewrite app_length; simpl; lia).
    replace (pre ++ a :: l) with ((pre ++ [a]) ++ l) by (rewrite <- app_assoc; reflexivity). apply IHl; auto. }
  apply (G m []). auto.
Qed.

Example C05_example :
  messages_out [] (snd (gr_run {| gr_size := 2; gr_sep := [45]; gr_term := [10] |} 0 [([1;2;3], false); ([4], false); ([5], true); ([6;7],true)]))
  = [[1;2;45;3;4;45;5;10]; [6;7;10]].
Proof. reflexivity. Qed.

(** C01. Round trip through encoder, grouper, arbitrary re-chunking and decoder. *)
Theorem C01_codec_round_trip :
  forall n alpha lookup pad g ms,
  (1 <= n <= 7)%nat ->
  (forall v, 0 <= v < 2 ^ Z.of_nat n -> lookup (alpha v) = v) ->
  (forall c, ~ (0 <= lookup c < 256) \/ 0 <= lookup c < 2 ^ Z.of_nat n) ->
  (forall p, pad = Some p -> ~ (0 <= lookup p < 256)) ->
  Forall (fun c => ~ (0 <= lookup c < 256)) (gr_sep g ++ gr_term g) ->
  Forall (fun m => bytes (message_of m)) ms ->
  exists st tr, encgr_run n alpha pad g (enc_init n, 0%nat) (history_of ms) = Some (st, tr) /\
    forall ts, map message_of ts = messages_out [] tr ->
    messages_out [] (snd (dec_run n lookup (dec_init n) (history_of ts))) = map message_of ms.
Proof.
  intros n alpha lookup pad g ms Hn Ha Hl Hp Hs Hb.
  destruct (C04_encoder_computes_positional_encoding n alpha pad ms Hn Hb) as [s' [tr [E M]]].
  eexists. eexists. split. { apply encgr_run_factor. exact E. }
  intros ts Ht. rewrite gr_run_messages, M in Ht.
  destruct (C04_decoder_computes_recut n lookup ts Hn) as [s2 [tr2 [E2 M2]]].
  { apply Forall_forall. intros t _. apply Forall_forall. intros c _. apply Hl. }
  rewrite E2. simpl. rewrite M2.
  rewrite <- (map_map message_of (decode_spec n lookup) ts), Ht, !map_map. apply map_ext_in. intros m Hm.
  apply (decode_encode_values n alpha lookup pad); auto.
  - rewrite Forall_forall in Hb. apply Hb; auto.
  - apply Forall_app in Hs. destruct Hs as [Hs1 Hs2].
    rewrite values_app, values_group by auto. rewrite (values_foreign lookup (gr_term g)) by auto.
    apply app_nil_r.
Qed.

(** Tables: the decoding arrays invert the alphabets and contain no other values. *)
Definition table_ok (n : nat) (alpha table : list Z) : bool :=
  forallb (fun k => arr table (arr alpha (Z.of_nat k)) =? Z.of_nat k) (seq 0 (2 ^ n)) &&
  forallb (fun v => (v <? 0) || (v <? 2 ^ Z.of_nat n)) table.

Lemma table_ok_facts : forall n alpha table, (1 <= n <= 7)%nat -> table_ok n alpha table = true ->
  (forall v, 0 <= v < 2 ^ Z.of_nat n -> arr table (arr alpha v) = v) /\
  (forall c, ~ (0 <= arr table c < 256) \/ 0 <= arr table c < 2 ^ Z.of_nat n).
Proof.
  intros n alpha table Hn H. unfold table_ok in H. apply andb_true_iff in H. destruct H as [H1 H2].
  rewrite forallb_forall in H1, H2. split.
  - intros v Hv. specialize (H1 (Z.to_nat v)). rewrite Z2Nat.id in H1 by lia. apply Z.eqb_eq. apply H1.
    apply in_seq. split; [lia|]. rewrite Nat.add_0_l. apply Nat2Z.inj_lt. rewrite Z2Nat.id by lia.
    rewrite Nat2Z.inj_pow. lia.
  - intros c. unfold arr. destruct (Nat.lt_ge_cases (Z.to_nat c) (length table)).
    + specialize (H2 _ (nth_In table 0 H)). apply orb_true_iff in H2. rewrite !Z.ltb_lt in H2. lia.
    + rewrite nth_overflow by auto. right. split; try lia.
Qed.

Definition foreign (table l : list Z) : bool := forallb (fun c => arr table c <? 0) l.
Lemma foreign_facts : forall table l, foreign table l = true -> Forall (fun c => ~ (0 <= arr table c < 256)) l.
Proof.
  intros. apply Forall_forall. intros c Hc. unfold foreign in H. rewrite forallb_forall in H.
  specialize (H c Hc). apply Z.ltb_lt in H. lia.
Qed.

Lemma standard_tables_ok :
  table_ok 4 hex_upper hex_array = true /\ table_ok 4 hex_lower hex_array = true /\
  table_ok 5 b32_upper b32_array = true /\ table_ok 5 b32_lower b32_array = true /\
  table_ok 5 b32hex_upper b32hex_array = true /\ table_ok 5 b32hex_lower b32hex_array = true /\
  table_ok 6 b64_std b64_std_array = true /\ table_ok 6 b64_url b64_url_array = true.
Proof. vm_compute. repeat split; reflexivity. Qed.

(** The standard encoders with any group size and any separators outside the alphabet. *)
Definition standard_codec (n : nat) (alpha table : list Z) : Prop :=
  (n = 4%nat /\ (alpha = hex_upper \/ alpha = hex_lower) /\ table = hex_array) \/
  (n = 5%nat /\ (alpha = b32_upper \/ alpha = b32_lower) /\ table = b32_array) \/
  (n = 5%nat /\ (alpha = b32hex_upper \/ alpha = b32hex_lower) /\ table = b32hex_array) \/
  (n = 6%nat /\ alpha = b64_std /\ table = b64_std_array) \/
  (n = 6%nat /\ alpha = b64_url /\ table = b64_url_array).

Theorem C01_standard_codecs_round_trip :
  forall n alpha table pad g ms, standard_codec n alpha table ->
  (pad = None \/ pad = Some b64_pad) ->
  Forall (fun c => arr table c < 0) (gr_sep g ++ gr_term g) ->
  Forall (fun m => bytes (message_of m)) ms ->
  exists st tr, encgr_run n (arr alpha) pad g (enc_init n, 0%nat) (history_of ms) = Some (st, tr) /\
    forall ts, map message_of ts = messages_out [] tr ->
    messages_out [] (snd (dec_run n (arr table) (dec_init n) (history_of ts))) = map message_of ms.
Proof.
  intros n alpha table pad g ms HC HP HS HB.
  destruct standard_tables_ok as [T1 [T2 [T3 [T4 [T5 [T6 [T7 T8]]]]]]].
  assert (K : (1 <= n <= 7)%nat /\ table_ok n alpha table = true /\ foreign table [b64_pad] = true).
  { destruct HC as [[-> [[->| ->] ->]]|[[-> [[->| ->] ->]]|[[-> [[->| ->] ->]]|[[-> [-> ->]]|[-> [-> ->]]]]]];
      (split; [lia|split; [assumption|reflexivity]]). }
  destruct K as [Hn [HT HF]]. destruct (table_ok_facts n alpha table Hn HT) as [F1 F2].
  apply C01_codec_round_trip; auto.
  - intros p E. destruct HP as [->| ->]; [discriminate|]. inversion E; subst.
    apply foreign_facts in HF. inversion HF; auto.
  - eapply Forall_impl; [|exact HS]. simpl. intros. lia.
Qed.

(** Line breaks (LF) and blanks are outside every standard alphabet. *)
Example C01_separators_admissible :
  forall table, In table [hex_array; b32_array; b32hex_array; b64_std_array; b64_url_array] ->
  Forall (fun c => arr table c < 0) [10; 13; 32; 9; 58; 44].
Proof.
  intros table H. simpl in H.
  repeat (destruct H as [<-|H]; [repeat constructor|]). contradiction.
Qed.

Example C01_example :
  encgr_run 6 (arr b64_std) (Some b64_pad) {| gr_size := 3; gr_sep := [10]; gr_term := [10] |} (enc_init 6, 0%nat)
    [([77], false); ([97; 110; 77], true)]
  = Some (({| bn_buf := [84; 81; 61; 61]; bn_byte := 0; bn_bit := 0 |}, 0%nat),
      [([], false); ([84; 87; 70; 10; 117; 84; 81; 10; 61; 61; 10], true)]).
Proof. vm_compute. reflexivity. Qed.

(** Custom alphabets: any 2^n distinct bytes with the table built by InitializeDecodingLookupArray. *)
Theorem C01_custom_alphabet_round_trip :
  forall n al pad g ms,
  (1 <= n <= 7)%nat -> length al = (2 ^ n)%nat -> NoDup al ->
  (forall p, pad = Some p -> ~ In p al) ->
  (forall c, In c (gr_sep g ++ gr_term g) -> ~ In c al) ->
  Forall (fun m => bytes (message_of m)) ms ->
  exists st tr, encgr_run n (arr al) pad g (enc_init n, 0%nat) (history_of ms) = Some (st, tr) /\
    forall ts, map message_of ts = messages_out [] tr ->
    messages_out [] (snd (dec_run n (init_lookup al) (dec_init n) (history_of ts))) = map message_of ms.
Proof.
  intros n al pad g ms Hn HL HD HP HS HB.
  assert (HF : forall c, ~ In c al -> ~ (0 <= init_lookup al c < 256)).
  { intros c Hc. unfold init_lookup. rewrite init_lookup_aux_notin by auto. lia. }
  apply C01_codec_round_trip; auto.
  - intros v Hv. unfold init_lookup, arr. rewrite init_lookup_aux_nth; auto.
    + rewrite Z2Nat.id; lia.
    + rewrite HL. apply Nat2Z.inj_lt. rewrite Z2Nat.id by lia. rewrite Nat2Z.inj_pow. lia.
  - intros c. unfold init_lookup. destruct (init_lookup_range al 0 (fun _ => -1) c) as [E|E].
    + left. rewrite E. lia.
    + right. rewrite HL, Nat2Z.inj_pow in E. lia.
  - apply Forall_forall. intros. apply HF. apply HS. auto.
Qed.

Example C01_custom_example :
  exists al, length al = (2 ^ 3)%nat /\ NoDup al /\ ~ In 61 al.
Proof.
  exists [48;49;50;51;52;53;54;55]. split; auto. split.
  - repeat constructor; simpl; lia.
  - simpl; lia.
Qed.

(** The literal decoding tables are the ones InitializeDecodingLookupArray would build. *)
Theorem C01_literal_tables :
  map (fun k => init_lookup_ci hex_upper (Z.of_nat k)) (seq 0 256) = hex_array /\
  map (fun k => init_lookup_ci b32_upper (Z.of_nat k)) (seq 0 256) = b32_array /\
  map (fun k => init_lookup_ci b32hex_upper (Z.of_nat k)) (seq 0 256) = b32hex_array /\
  map (fun k => init_lookup b64_std (Z.of_nat k)) (seq 0 256) = b64_std_array /\
  map (fun k => init_lookup b64_url (Z.of_nat k)) (seq 0 256) = b64_url_array.
Proof. vm_compute. repeat split; reflexivity. Qed.

(** Length of the encoded text. *)
Theorem C04_encoded_length :
  forall n alpha pad msg, (1 <= n <= 7)%nat ->
  let c := length (encode_spec n alpha pad msg) in
  (8 * length msg <= n * c)%nat /\
  match pad with
  | None => (n * c < 8 * length msg + n)%nat
  | Some _ => (c mod (8 / Nat.gcd 8 n) = 0)%nat /\ (n * c < 8 * length msg + n + n * (8 / Nat.gcd 8 n))%nat
  end.
Proof.
  intros n alpha pad msg Hn c. unfold c, encode_spec. rewrite app_length, map_length, recut_length.
  set (k := enc_chars n (length msg)).
  assert (Cb : (8 * length msg <= n * k < 8 * length msg + n)%nat).
  { unfold k, enc_chars. pose proof (Nat.div_mod (8 * length msg + n - 1) n ltac:(lia)).
    pose proof (Nat.mod_upper_bound (8 * length msg + n - 1) n ltac:(lia)). nia. }
  destruct pad; [|simpl; rewrite Nat.add_0_r; lia].
  rewrite repeat_length. fold (pad_block n). destruct (enc_block_facts n Hn) as [_ [F2 F3]].
  set (B := pad_block n) in *. assert (HB : (B <> 0)%nat) by nia.
  pose proof (Nat.mod_upper_bound (B - k mod B) B HB).
  split; [nia|]. split; [|nia].
  pose proof (Nat.div_mod k B HB). pose proof (Nat.mod_upper_bound k B HB).
  destruct (Nat.eq_dec (k mod B) 0) as [E|E].
  - rewrite E, Nat.sub_0_r, Nat.mod_same, Nat.add_0_r by auto. auto.
  - rewrite (Nat.mod_small (B - k mod B)) by lia.
    replace (k + (B - k mod B))%nat with (S (k / B) * B)%nat by nia. apply Nat.mod_mul. auto.
Qed.

Example C04_length_example : length (encode_spec 6 (arr b64_std) (Some b64_pad) (repeat 0 100)) = 136%nat.
Proof. vm_compute. reflexivity. Qed.

Print Assumptions C01_codec_round_trip.
Print Assumptions C01_standard_codecs_round_trip.
Print Assumptions C01_custom_alphabet_round_trip.
Print Assumptions C02_encoder_chunking_independent.
Print Assumptions C02_decoder_chunking_independent.
Print Assumptions C03_decoder_ignores_foreign_characters.
Print Assumptions C04_encoder_computes_positional_encoding.
Print Assumptions C05_grouper_spec.
