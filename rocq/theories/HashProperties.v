(** Theorems about iterated hashes, HMAC and digest verification (C10 - C14, C18). *)
From Coq Require Import ZArith List Lia Bool Arith.
From Verif Require Import Base Blocks HashModel HashSpec HashProofs.
Import ListNotations.
Local Open Scope Z_scope.

(** A toy compression function used in the examples: 2 words of state, 64-byte blocks. *)
Definition toy (big : bool) (dsize : nat) : hashalg :=
  mkHA 4 64 big (fun st d => [(nth 0 st 0 * 31 + fold_left Z.add d 7) mod 2 ^ 32; (nth 1 st 0 + nth 15 d 0 + 1) mod 2 ^ 32]) [1; 2] dsize.
Lemma toy_ok : forall big, ok_alg (toy big 8).
Proof.
  intros big. unfold ok_alg. cbn. repeat split; auto. exists 6%nat. split; [reflexivity|lia]. lia.
Qed.
Definition toy64 : hashalg := mkHA 8 128 true (fun st d => [(nth 0 st 0 * 31 + fold_left Z.add d 7) mod 2 ^ 64]) [5] 8.
Lemma toy64_ok : ok_alg toy64.
Proof. unfold ok_alg. cbn. repeat split; auto. exists 7%nat. split; [reflexivity|lia]. lia. Qed.

(** C10: up to the first refusal, all answers of an object are a function of the bytes fed since the last
    Final or Restart; how they were cut into calls, their alignment and the use of the update space do
    not matter. *)
Theorem C10_history : forall a ops, ok_alg a -> objects ops ->
  upto_refusal (ih_run a (ih_new a) ops) =
  upto_refusal (spec_hrun (md_hash a) (ha_B a) (ha_dsize a) (ha_M a * ha_M a) [] ops).
Proof. intros a ops Ha Ho. apply ih_run_spec; auto using hrep_new. Qed.

(** Two ways of feeding the same message give the same digest, at every truncation. *)
Theorem C10_digest_independent_of_chunking : forall a ops1 ops2 m al1 al2 n, ok_alg a ->
  objects ops1 -> objects ops2 -> feed (ha_B a) [] ops1 = Some m -> feed (ha_B a) [] ops2 = Some m ->
  blen m < ha_M a * ha_M a -> (n <= ha_dsize a)%nat ->
  snd (ih_step a (ih_exec a (ih_new a) ops1) (HFinal al1 n)) = snd (ih_step a (ih_exec a (ih_new a) ops2) (HFinal al2 n)) /\
  exists d, snd (ih_step a (ih_exec a (ih_new a) ops1) (HFinal al1 n)) = ODigest d /\ length d = n.
Proof.
  intros a ops1 ops2 m al1 al2 n Ha O1 O2 F1 F2 Hm Hn.
  assert (G : forall ops al, objects ops -> feed (ha_B a) [] ops = Some m ->
    snd (ih_step a (ih_exec a (ih_new a) ops) (HFinal al n)) = ODigest (firstn n (md_hash a m))).
  { intros ops al O F.
    assert (R : forall l h w, hrep a h w -> objects l -> feed (ha_B a) w l = Some m -> hrep a (ih_exec a h l) m).
    { induction l as [|op l IH]; intros h w H Ol Fl; [cbn in Fl; injection Fl as ->; exact H|].
      unfold ih_exec. cbn [fold_left]. 
      assert (Ol' : objects l) by (intros x Hx; apply Ol; right; auto).
      assert (Mono : forall l w, feed (ha_B a) w l = Some m -> blen w <= blen m).
      { clear. induction l as [|o l IHl]; intros w Hw; cbn [feed] in Hw; [injection Hw as ->; lia|].
        destruct o; try discriminate; apply IHl in Hw; unfold blen in *; rewrite ?app_length in Hw; lia. }
      destruct (ih_step_spec a Ha h w op H) as [X1 X2]; [apply Ol; left; auto|].
      destruct op; try discriminate; cbn [feed] in Fl; apply Mono in Fl as Hle; eapply IH; eauto; apply X2; rewrite X1;
        cbn [spec_hstep snd]; unfold spec_absorb; cbn [snd]; try discriminate;
        rewrite (proj2 (Z.ltb_lt _ _)) by lia; discriminate. }
    specialize (R ops (ih_new a) [] (hrep_new a Ha) O F).
    destruct (ih_final_spec a Ha _ m al n R Hn) as [E _]. cbn [ih_step].
    destruct (ih_final a (ih_exec a (ih_new a) ops) al n) as [h' o]. cbn in E. subst o. reflexivity. }
  rewrite (G ops1 al1 O1 F1), (G ops2 al2 O2 F2). split; auto. eexists. split; [reflexivity|].
  rewrite firstn_length, md_hash_length by auto. lia.
Qed.
Example C10_example :
  let m := repeat 3 150 in
  let ops1 := [HUpdate true m] in
  let ops2 := [HUpdate false (repeat 3 10); HSpace (repeat 3 70); HScribble (repeat 9 64); HUpdate true (repeat 3 86)] in
  feed 64 [] ops1 = Some m /\ feed 64 [] ops2 = Some m /\
  snd (ih_step (toy true 8) (ih_exec (toy true 8) (ih_new (toy true 8)) ops1) (HFinal true 8)) =
  snd (ih_step (toy true 8) (ih_exec (toy true 8) (ih_new (toy true 8)) ops2) (HFinal false 8)).
Proof. vm_compute. auto. Qed.

(** C11: the digest is the compression function iterated over the padded message. *)
Theorem C11_padding_exists_and_is_unique : forall a m, ok_alg a -> exists p, padded a m p /\ forall q, padded a m q -> q = p.
Proof. intros a m Ha. exists (pad a m). split; [apply padded_pad; auto|]. intros q Hq. eapply padded_unique; eauto. apply padded_pad; auto. Qed.
Theorem C11_digest_is_merkle_damgard : forall a ops m p al n, ok_alg a -> objects ops ->
  feed (ha_B a) [] ops = Some m -> blen m < ha_M a * ha_M a -> padded a m p -> (n <= ha_dsize a)%nat ->
  upto_refusal (ih_run a (ih_new a) (ops ++ [HFinal al n])) =
  repeat ODone (length ops) ++ [ODigest (firstn n (md_output a p))].
Proof.
  intros a ops m p al n Ha O F Hm Hp Hn.
  assert (O' : objects (ops ++ [HFinal al n])).
  { intros x Hx. apply in_app_or in Hx. destruct Hx as [Hx|[<-|[]]]; auto. cbn. lia. }
  rewrite (C10_history a _ Ha O').
  rewrite (spec_feed a ops [] m) by auto. cbn [spec_hrun spec_hstep]. rewrite (proj2 (Nat.leb_le _ _)) by auto.
  assert (E : p = pad a m) by (eapply padded_unique; eauto; apply padded_pad; auto). subst p.
  clear. induction (length ops) as [|k IH]; [reflexivity|]. cbn [repeat app upto_refusal]. rewrite IH. reflexivity.
Qed.
Example C11_example :
  let m := repeat 200 60 in
  exists p, padded (toy false 8) m p /\ length p = 128%nat /\ nth 60 p 0 = 128 /\ nth 120 p 0 = 224 /\ nth 121 p 0 = 1 /\
  ih_run (toy false 8) (ih_new (toy false 8)) [HUpdate true m; HFinal true 8] = [ODone; ODigest (md_output (toy false 8) p)].
Proof. exists (pad (toy false 8) (repeat 200 60)). split; [apply padded_pad, toy_ok|]. vm_compute. auto. Qed.
Example C11_example64 :
  padded toy64 (repeat 7 112) (pad toy64 (repeat 7 112)) /\ length (pad toy64 (repeat 7 112)) = 256%nat /\
  ih_run toy64 (ih_new toy64) [HUpdate true (repeat 7 112); HFinal true 8] = [ODone; ODigest (md_output toy64 (pad toy64 (repeat 7 112)))].
Proof. split; [apply padded_pad, toy64_ok|]. vm_compute. auto. Qed.

(** C12: after Restart or a successful Final the object answers like a new one, whatever happened
    before - including calls that were refused. *)
Theorem C12_hash_restarts_cleanly : forall a before op after, ok_alg a ->
  (op = HRestart \/ exists al n, op = HFinal al n /\ (n <= ha_dsize a)%nat) -> objects after ->
  upto_refusal (ih_run a (fst (ih_step a (ih_exec a (ih_new a) before) op)) after) =
  upto_refusal (ih_run a (ih_new a) after).
Proof.
  intros a before op after Ha Hop Ho. apply restart_fresh; auto. apply wf_exec; auto. eapply hrep_wf; eauto using hrep_new.
Qed.
Example C12_example :
  let a := toy true 8 in
  ih_run a (ih_exec a (ih_new a) [HUpdate true (repeat 1 77); HSpace [1;2]; HRestart]) [HUpdate true [5]; HFinal true 4] =
  ih_run a (ih_new a) [HUpdate true [5]; HFinal true 4].
Proof. reflexivity. Qed.

(** C13: Update refuses exactly the calls that would bring the message to 2^(2N) bytes, N being the number
    of bits in a word.  The length field holds 2N bits, but it counts bits: what is missing for C13 is the
    refusal of lengths between 2^(2N)/8 and 2^(2N) bytes, see [C13_long_messages_wrap_refuted]. *)
Theorem C13_refusal_partial : forall a ops m al d, ok_alg a -> objects (ops ++ [HUpdate al d]) ->
  feed (ha_B a) [] ops = Some m -> blen m < 2 ^ (2 * ha_N a) ->
  upto_refusal (ih_run a (ih_new a) (ops ++ [HUpdate al d])) =
  repeat ODone (length ops) ++ [if blen (m ++ d) <? 2 ^ (2 * ha_N a) then ODone else OTooLong].
Proof.
  intros a ops m al d Ha Ho Hf Hm.
  assert (E : 2 ^ (2 * ha_N a) = ha_M a * ha_M a).
  { unfold ha_M, ha_N. rewrite <- Z.pow_add_r by lia. f_equal. lia. }
  rewrite E in *. rewrite (C10_history a _ Ha Ho), (spec_feed a ops [] m) by auto.
  cbn [spec_hrun spec_hstep]. unfold spec_absorb.
  induction (length ops) as [|k IH]; [|cbn [repeat app upto_refusal]; rewrite IH; reflexivity].
  cbn [repeat app]. destruct (blen (m ++ d) <? ha_M a * ha_M a); reflexivity.
Qed.
(** Where the bit length fits the field, the field holds the true bit length. *)
Theorem C13_true_bit_length : forall a m p, ok_alg a -> padded a m p -> 8 * blen m < 2 ^ (2 * ha_N a) ->
  (if ha_big a then be_val else le_val) (skipn (length p - 2 * ha_W a) p) = 8 * blen m.
Proof.
  intros a m p Ha (z & Hp & _ & _) Hm.
  assert (E : 2 ^ (2 * ha_N a) = 256 ^ Z.of_nat (2 * ha_W a)).
  { unfold ha_N. replace (2 * (8 * Z.of_nat (ha_W a))) with (8 * Z.of_nat (2 * ha_W a)) by lia. rewrite Z.pow_mul_r by lia. reflexivity. }
  rewrite E in Hm.
  assert (G : forall f, length f = (2 * ha_W a)%nat -> p = m ++ [128] ++ repeat 0 z ++ f -> skipn (length p - 2 * ha_W a) p = f).
  { intros f Hf ->. rewrite !app_assoc. rewrite app_length, Hf.
    match goal with |- skipn (?x + ?y - ?y) _ = _ => replace (x + y - y)%nat with x by lia end.
    rewrite skipn_app, skipn_all, Nat.sub_diag. reflexivity. }
  fold (blen m) in Hp. assert (0 <= blen m) by (unfold blen; lia).
  destruct (ha_big a).
  - rewrite (G _ (be_bytes_length _ _) Hp). apply be_val_be_bytes. lia.
  - rewrite (G _ (le_bytes_length _ _) Hp), le_val_bytes_mod. apply Z.mod_small. lia.
Qed.
Lemma zeros_exist : forall n, 0 <= n -> exists m, blen m = n.
Proof. intros n H. exists (repeat 0 (Z.to_nat n)). unfold blen. rewrite repeat_length. apply Z2Nat.id. auto. Qed.
(** A message of 2^(2N-3) bytes (2^61 bytes for 32-bit words) is accepted, and its length field is zero. *)
Theorem C13_long_messages_wrap_refuted : forall a, ok_alg a -> ha_W a = 4%nat ->
  exists m p, blen m = 2 ^ 61 /\ 8 * blen m = 2 ^ (2 * ha_N a) /\
    ih_run a (ih_new a) [HUpdate true m; HFinal true (ha_dsize a)] = [ODone; ODigest (md_output a p)] /\
    padded a m p /\ (if ha_big a then be_val else le_val) (skipn (length p - 2 * ha_W a) p) = 0.
Proof.
  intros a Ha HW. destruct (zeros_exist (2 ^ 61)) as (m & Hl); [lia|].
  assert (HN : ha_N a = 32) by (unfold ha_N; rewrite HW; reflexivity).
  exists m, (pad a m). split; auto. split; [rewrite HN; lia|].
  assert (Hlt : blen m < ha_M a * ha_M a) by (unfold ha_M; rewrite HN; lia).
  split.
  - assert (O : objects [HUpdate true m; HFinal true (ha_dsize a)]).
    { intros x [<-|[<-|[]]]; cbn [op_bytes]; lia. }
    pose proof (C11_digest_is_merkle_damgard a [HUpdate true m] m (pad a m) true (ha_dsize a) Ha) as H.
    cbn [feed app] in H. specialize (H ltac:(intros x [<-|[]]; cbn [op_bytes]; lia) eq_refl Hlt (padded_pad a Ha m) (Nat.le_refl _)).
    cbn [length repeat app] in H.
    rewrite (firstn_all2 (md_output a (pad a m))) in H.
    2:{ unfold md_output. rewrite firstn_length. lia. }
    destruct (ih_run a (ih_new a) [HUpdate true m; HFinal true (ha_dsize a)]) as [|x [|y l]] eqn:E;
      cbn [ih_run] in E; destruct (ih_step a (ih_new a) (HUpdate true m)) as [h1 o1];
      destruct (ih_step a h1 (HFinal true (ha_dsize a))) as [h2 o2]; inversion E; subst.
    cbn [upto_refusal] in H. destruct x; try discriminate; destruct y; try discriminate; inversion H; subst; reflexivity.
  - split; [apply padded_pad; auto|].
    set (f := if ha_big a then be_bytes (2 * ha_W a) (8 * blen m) else le_bytes (2 * ha_W a) (8 * blen m)).
    assert (Lf : length f = (2 * ha_W a)%nat) by (unfold f; destruct (ha_big a); rewrite ?be_bytes_length, ?le_bytes_length; reflexivity).
    assert (Es : skipn (length (pad a m) - 2 * ha_W a) (pad a m) = f).
    { unfold pad. fold (blen m) f. rewrite !app_assoc. rewrite app_length, Lf.
      match goal with |- skipn (?x + ?y - ?y) _ = _ => replace (x + y - y)%nat with x by lia end.
      rewrite skipn_app, skipn_all, Nat.sub_diag. reflexivity. }
    rewrite Es. unfold f. rewrite HW, Hl. destruct (ha_big a); reflexivity.
Qed.
Example C13_example : ok_alg (toy true 8) /\ ha_W (toy true 8) = 4%nat /\ 2 ^ (2 * ha_N (toy true 8)) = 2 ^ 64.
Proof. split; [apply toy_ok|]. split; reflexivity. Qed.

(** C14: HMAC over any hash object that implements a hash function, any history of keys, pieces,
    truncations and restarts.  [hist_ok] asks that the keys and messages stay within what the hash accepts. *)
Theorem C14_hmac_generic : forall S (o : hobj S) rep hash ok s0 key ops,
  implements o rep hash ok -> ho_bsize o <> 0%nat -> rep s0 [] -> ok key -> hist_ok o hash ok key [] ops ->
  exists h, hm_setkey o (hm_new s0) key = Some h /\
    hm_run o h ops = Some (spec_mrun (hmac_spec hash (ho_bsize o)) (ho_dsize o) (key, []) ops).
Proof.
  intros S o rep hash ok s0 key ops Hi HB Hr Hk Hh.
  destruct (hm_setkey_spec o rep hash ok Hi HB (hm_new s0) key) as (h & E & R); auto.
  exists h. split; auto. eapply hm_run_spec; eauto.
Qed.
Theorem C14_iterated_hash_implements_its_digest : forall a, ok_alg a ->
  implements (ih_obj a) (hrep a) (md_hash a) (fun m => blen m < ha_M a * ha_M a /\ blen m < 2 ^ 63) /\ hrep a (ih_new a) [].
Proof. intros a Ha. split; [apply ih_implements; auto|apply hrep_new; auto]. Qed.
(** HMAC over an iterated hash: every history in which the keys and messages total less than 2^62 bytes. *)
Theorem C14_hmac_is_rfc2104 : forall a key ops, ok_alg a -> Z.of_nat (ha_dsize a) <= 2 ^ 32 ->
  blen key + mhist_bytes ops < 2 ^ 62 ->
  exists h, hm_setkey (ih_obj a) (hm_new (ih_new a)) key = Some h /\
    hm_run (ih_obj a) h ops = Some (spec_mrun (hmac_spec (md_hash a) (ha_B a)) (ha_dsize a) (key, []) ops).
Proof.
  intros a key ops Ha Hd Hb.
  assert (HB : (ha_B a <> 0)%nat) by (apply B_pos; auto).
  destruct (C14_iterated_hash_implements_its_digest a Ha) as [Hi Hn].
  assert (Hn0 : forall l, 0 <= mhist_bytes l).
  { induction l; cbn [mhist_bytes fold_right]; [lia|]. fold (mhist_bytes l). lia. }
  assert (HM : 2 ^ 63 <= ha_M a * ha_M a).
  { unfold ha_M, ha_N. rewrite <- Z.pow_add_r by lia. apply Z.pow_le_mono_r; [lia|]. destruct Ha as [[-> | ->] _]; lia. }
  assert (HB32 : Z.of_nat (ha_B a) <= 2 ^ 32).
  { destruct (B_pow a Ha) as (k & -> & Hk). rewrite (pow_nat_Z a). apply Z.pow_le_mono_r; lia. }
  assert (Hkl : forall k, length (hmac_key (md_hash a) (ha_B a) k) = ha_B a \/ length (hmac_key (md_hash a) (ha_B a) k) = ha_dsize a).
  { intros k. unfold hmac_key. destruct (Nat.leb_spec (length k) (ha_B a)); rewrite app_length, repeat_length; [left; lia|].
    rewrite md_hash_length by auto. lia. }
  assert (Hmac : forall k m, blen k < 2 ^ 62 -> blen m < 2 ^ 62 ->
    mac_ok (ih_obj a) (md_hash a) (fun m => blen m < ha_M a * ha_M a /\ blen m < 2 ^ 63) k m).
  { intros k m Hk Hm. unfold mac_ok. cbn [ho_bsize ih_obj].
    assert (G : forall m, blen m < 2 ^ 63 -> blen m < ha_M a * ha_M a /\ blen m < 2 ^ 63) by (intros; lia).
    split; [apply G; lia|]. split; apply G; unfold blen in *; rewrite ?app_length; unfold xor_with; rewrite ?map_length, ?md_hash_length by auto;
      destruct (Hkl k) as [E | E]; rewrite ?E; lia. }
  apply C14_hmac_generic with (rep := hrep a) (ok := fun m => blen m < ha_M a * ha_M a /\ blen m < 2 ^ 63); auto.
  { specialize (Hn0 ops). lia. }
  assert (G : forall ops k m, blen k + blen m + mhist_bytes ops < 2 ^ 62 ->
     hist_ok (ih_obj a) (md_hash a) (fun m => blen m < ha_M a * ha_M a /\ blen m < 2 ^ 63) k m ops).
  { induction ops0 as [|op r IH]; intros k m H; cbn [hist_ok]; auto.
    cbn [mhist_bytes fold_right] in H. fold (mhist_bytes r) in H. specialize (Hn0 r).
    assert (0 <= blen k /\ 0 <= blen m) by (unfold blen; lia).
    destruct op; cbn [mop_bytes] in H; fold (blen d) in H || fold (blen key0) in H || idtac.
    - assert (blen (m ++ d) = blen m + blen d) by (unfold blen; rewrite app_length; lia). assert (0 <= blen d) by (unfold blen; lia).
      split; [apply Hmac; lia|apply IH; lia].
    - split; [apply Hmac; lia|]. apply IH. destruct (Nat.leb size (ho_dsize (ih_obj a))); [change (blen []) with 0|]; lia.
    - apply IH. change (blen []) with 0. lia.
    - split; [lia|]. apply IH. change (blen []) with 0. lia. }
  apply G. change (blen []) with 0. lia.
Qed.
Example C14_example :
  let a := toy true 8 in
  let key := repeat 11 70 in
  let ops := [MUpdate [1;2]; MUpdate [3]; MFinal 8; MUpdate [1;2;3]; MFinal 4; MSetKey [9]; MFinal 9; MUpdate []; MFinal 8] in
  match hm_setkey (ih_obj a) (hm_new (ih_new a)) key with
  | Some h => hm_run (ih_obj a) h ops = Some [MODone; MODone; MOTag (hmac_spec (md_hash a) 64 key [1;2;3]); MODone;
      MOTag (firstn 4 (hmac_spec (md_hash a) 64 key [1;2;3])); MODone; MOInvalid; MODone; MOTag (hmac_spec (md_hash a) 64 [9] [])]
  | None => False
  end.
Proof. vm_compute. reflexivity. Qed.
(** HMAC objects restart: after Final or Restart the answers are those of an object just keyed. *)
Theorem C12_hmac_restarts_cleanly : forall T (o : hobj T) rep hash ok s0 key before op after,
  implements o rep hash ok -> ho_bsize o <> 0%nat -> rep s0 [] -> ok key ->
  hist_ok o hash ok key [] (before ++ op :: after) -> ~ (exists k, In (MSetKey k) before) ->
  (op = MRestart \/ exists n, op = MFinal n /\ (n <= ho_dsize o)%nat) ->
  exists h out1 out2, hm_setkey o (hm_new s0) key = Some h /\
    hm_run o h (before ++ op :: after) = Some (out1 ++ out2) /\ length out1 = S (length before) /\
    hm_run o h after = Some out2.
Proof.
  intros T o rep hash ok s0 key before op after Hi HB Hr Hk Hh Hnk Hop.
  destruct (hm_setkey_spec o rep hash ok Hi HB (hm_new s0) key) as (h & E & R); auto.
  assert (G : forall l m, hist_ok o hash ok key m (l ++ op :: after) -> ~ (exists k, In (MSetKey k) l) ->
    hist_ok o hash ok key [] after /\
    exists out1, length out1 = S (length l) /\
      spec_mrun (hmac_spec hash (ho_bsize o)) (ho_dsize o) (key, m) (l ++ op :: after) =
      out1 ++ spec_mrun (hmac_spec hash (ho_bsize o)) (ho_dsize o) (key, []) after).
  { induction l as [|x l IH]; intros m Hm Hl.
    - cbn [app] in *. destruct Hop as [-> | (n & -> & Hn)]; cbn [hist_ok spec_mrun spec_mstep] in *.
      + split; auto. eexists [_]. split; reflexivity.
      + rewrite (proj2 (Nat.leb_le _ _)) in * by auto. split; [tauto|]. eexists [_]. split; reflexivity.
    - assert (Hl' : ~ (exists k, In (MSetKey k) l)) by (intros (k & Hk'); apply Hl; exists k; right; auto).
      destruct x as [d|n| |k]; cbn [app hist_ok spec_mrun spec_mstep] in *.
      + destruct Hm as [_ Hm]. destruct (IH _ Hm Hl') as (X & out & L & ->). split; auto. exists (MODone :: out). split; [cbn; lia|reflexivity].
      + destruct Hm as [_ Hm]. destruct (Nat.leb n (ho_dsize o)); destruct (IH _ Hm Hl') as (X & out & L & ->); split; auto.
        * exists (MOTag (firstn n (hmac_spec hash (ho_bsize o) key m)) :: out). split; [cbn; lia|reflexivity].
        * exists (MOInvalid :: out). split; [cbn; lia|reflexivity].
      + destruct (IH _ Hm Hl') as (X & out & L & ->). split; auto. exists (MODone :: out). split; [cbn; lia|reflexivity].
      + exfalso. apply Hl. exists k. left. reflexivity. }
  destruct (G before [] Hh Hnk) as (Ha & out1 & L & Es).
  exists h, out1, (spec_mrun (hmac_spec hash (ho_bsize o)) (ho_dsize o) (key, []) after).
  split; auto. split; [|split; auto].
  - rewrite <- Es. eapply hm_run_spec; eauto.
  - eapply hm_run_spec; eauto.
Qed.

(** C18: verification accepts exactly the right bytes. *)
Theorem C18_verify_bufs_equal_iff : forall x y, bytes x -> bytes y -> length x = length y ->
  (verify_bufs x y (length x) = true <-> x = y).
Proof.
  intros x y Hx Hy Hl. rewrite verify_bufs_spec by (auto; lia). rewrite firstn_all, Hl, firstn_all. tauto.
Qed.
Theorem C18_truncated_verify : forall S (o : hobj S) rep hash ok s m tag n,
  implements o rep hash ok -> rep s m -> bytes (hash m) -> bytes tag -> (n <= length tag)%nat ->
  (n <= ho_dsize o /\ exists s' b, ho_verify o s tag n = Some (s', b) /\ rep s' [] /\ (b = true <-> firstn n tag = firstn n (hash m)))%nat \/
  (ho_dsize o < n /\ ho_verify o s tag n = None)%nat.
Proof.
  intros S o rep hash ok s m tag n Hi Hr Hb Ht Hl. unfold ho_verify. destruct (Nat.ltb_spec (ho_dsize o) n); [right; auto|left].
  split; auto. destruct (imp_final _ _ _ _ Hi s m n Hr H) as [F1 F2]. destruct (ho_final o s n) as [s' calc]. cbn [fst snd] in F1, F2.
  do 2 eexists. split; [reflexivity|]. split; auto. subst calc.
  rewrite verify_bufs_spec; auto using bytes_firstn.
  - rewrite firstn_firstn, Nat.min_id. split; auto.
  - rewrite firstn_length, (imp_length _ _ _ _ Hi). lia.
Qed.
Example C18_example :
  verify_bufs [1;2;3;4;5;6;7;8;9] [1;2;3;4;5;6;7;8;9] 9 = true /\ verify_bufs [1;2;3;4;5;6;7;8;9] [1;2;3;4;5;6;7;8;8] 9 = false /\
  verify_bufs [1;2;3;4;5;6;7;8;9] [129;2;3;4;5;6;7;8;9] 9 = false /\ verify_bufs [1;2;3;4;5;6;7;8;9] [1;2;3;4;5;6;7;136;9] 9 = false.
Proof. vm_compute. auto. Qed.
Example C18_hash_example :
  let a := toy true 8 in let o := ih_obj a in
  let h := fst (ih_update a (ih_new a) true [1;2;3]) in
  option_map snd (ho_verify o h (md_hash a [1;2;3]) 8) = Some true /\
  option_map snd (ho_verify o h (md_hash a [1;2;4]) 8) = Some false /\ ho_verify o h (md_hash a [1;2;3] ++ [0]) 9 = None.
Proof. vm_compute. auto. Qed.

Print Assumptions C10_history.
Print Assumptions C10_digest_independent_of_chunking.
Print Assumptions C11_padding_exists_and_is_unique.
Print Assumptions C11_digest_is_merkle_damgard.
Print Assumptions C12_hash_restarts_cleanly.
Print Assumptions C12_hmac_restarts_cleanly.
Print Assumptions C13_refusal_partial.
Print Assumptions C13_true_bit_length.
Print Assumptions C13_long_messages_wrap_refuted.
Print Assumptions C14_hmac_generic.
Print Assumptions C14_iterated_hash_implements_its_digest.
Print Assumptions C14_hmac_is_rfc2104.
Print Assumptions C18_verify_bufs_equal_iff.
Print Assumptions C18_truncated_verify.
