(** C15, C16 and the MAC part of C12: CMAC and CBC-MAC, for every block cipher. *)
From Coq Require Import ZArith List Bool Arith Lia.
From Verif Require Import Base Blocks HashModel HashSpec HashProofs MacModel MacSpec MacProofs.
Import ListNotations.
Local Open Scope Z_scope.

(** A block cipher on [B]-byte blocks: all that is asked is that blocks go to blocks. *)
Definition block_map (B : nat) (E : list Z -> list Z -> list Z) : Prop :=
  forall k b, length b = B -> length (E k b) = B /\ bytes (E k b).

(** A cipher to run the examples with: bytes reversed, a key-dependent constant added. *)
Definition toy_cipher (k b : list Z) : list Z := map (fun x => (7 * x + 3 + fold_left Z.add k 0) mod 256) (rev b).
Lemma toy_cipher_ok : forall B, block_map B toy_cipher.
Proof.
  intros B k b H. unfold toy_cipher. split; [rewrite map_length, rev_length; auto|].
  apply Forall_forall. intros x Hx. apply in_map_iff in Hx as (y & <- & _). apply Z.mod_pos_bound. reflexivity.
Qed.

(** C15: whatever the history of Update, TruncatedFinal, Restart and SetKey calls, every tag that comes out
    is the CMAC, under the key in force, of the bytes fed since the last tag, restart or key change. *)
Theorem C15_cmac_history : forall E B p key ops, B <> 0%nat -> block_map B E -> cmac_poly B = Some p ->
  cm_run E B (cm_setkey E B key) ops = spec_mrun (fun k m => cmac_spec (E k) B p m) B (key, []) ops.
Proof. intros E B p key ops HB HE Hp. apply cm_run_spec; auto. apply cm_setkey_spec; auto. Qed.
(** The same for one message cut in any way. *)
Theorem C15_cmac_of_chunks : forall E B p key chunks, B <> 0%nat -> block_map B E -> cmac_poly B = Some p ->
  cm_run E B (cm_setkey E B key) (map MUpdate chunks ++ [MFinal B]) =
  map (fun _ => MODone) chunks ++ [MOTag (firstn B (cmac_spec (E key) B p (concat chunks)))].
Proof.
  intros E B p key chunks HB HE Hp. rewrite (C15_cmac_history E B p) by auto.
  enough (forall m, spec_mrun (fun k m => cmac_spec (E k) B p m) B (key, m) (map MUpdate chunks ++ [MFinal B]) =
    map (fun _ => MODone) chunks ++ [MOTag (firstn B (cmac_spec (E key) B p (m ++ concat chunks)))]) by (apply H).
  induction chunks as [|c cs IH]; intros m; cbn [map app spec_mrun spec_mstep concat].
  - rewrite Nat.leb_refl, app_nil_r. reflexivity.
  - rewrite IH, app_assoc. reflexivity.
Qed.
Example C15_example :
  let E := toy_cipher in let m := [1;2;3;4;5;6;7;8;9;10;11;12;13;14;15;16;17] in
  cm_run E 8 (cm_setkey E 8 [5]) [MUpdate [1;2;3]; MUpdate (skipn 3 m); MFinal 8; MFinal 9; MFinal 4; MUpdate (firstn 8 m); MUpdate []; MUpdate (skipn 8 (firstn 16 m)); MFinal 8] =
  [MODone; MODone; MOTag (cmac_spec (E [5]) 8 27 m); MOInvalid; MOTag (firstn 4 (cmac_spec (E [5]) 8 27 [])); MODone; MODone; MODone; MOTag (cmac_spec (E [5]) 8 27 (firstn 16 m))]
  /\ cmac_spec (E [5]) 8 27 m <> cmac_spec (E [5]) 8 27 (firstn 16 m).
Proof. vm_compute. split; [reflexivity|discriminate]. Qed.
(** The subkeys of SP 800-38B example D.1 (AES-128 with the key 2b7e1516...: L = 7df76b0c1ab899b33e42f047b91b546f). *)
Example C15_subkeys :
  let L := [125;247;107;12;26;184;153;179;62;66;240;71;185;27;84;111] in
  mulu L = [251;238;214;24;53;113;51;102;124;133;224;143;114;54;168;222] /\
  mulu (mulu L) = [247;221;172;48;106;226;102;204;249;11;193;30;228;109;81;59].
Proof. vm_compute. auto. Qed.

(** C16: the same for CBC-MAC. *)
Theorem C16_cbcmac_history : forall E B key ops, B <> 0%nat -> block_map B E ->
  cb_run E B (cb_setkey E B key) ops = spec_mrun (fun k m => cbcmac_spec (E k) B m) B (key, []) ops.
Proof. intros E B key ops HB HE. apply cb_run_spec; auto. apply cbrep_zero; auto. Qed.
(** What the zero padding costs: a message and the same message with a zero byte appended have the same
    tag whenever the length is not a multiple of the block size. *)
Theorem C16_zero_padding_collides : forall E B key m, B <> 0%nat -> block_map B E -> (length m mod B <> 0)%nat ->
  cb_run E B (cb_setkey E B key) [MUpdate m; MFinal B] = cb_run E B (cb_setkey E B key) [MUpdate (m ++ [0]); MFinal B].
Proof.
  intros E B key m HB HE Hm. rewrite !C16_cbcmac_history by auto. cbn [spec_mrun spec_mstep app]. rewrite Nat.leb_refl.
  do 4 f_equal. unfold cbcmac_spec. do 2 f_equal. rewrite app_length. cbn [length].
  pose proof (Nat.mod_upper_bound (length m) B HB).
  rewrite (Nat.mod_small (B - length m mod B)) by lia.
  destruct (Nat.eq_dec (length m mod B + 1) B) as [Eq|Ne].
  - assert ((length m + 1) mod B = 0)%nat as ->.
    { rewrite <- Nat.add_mod_idemp_l, Eq by auto. apply Nat.mod_same; auto. }
    rewrite Nat.sub_0_r, Nat.mod_same by auto. replace (B - length m mod B)%nat with 1%nat by lia. rewrite app_nil_r. reflexivity.
  - rewrite mod_add_small by lia. rewrite (Nat.mod_small (B - (length m mod B + 1))) by lia. rewrite <- app_assoc. f_equal.
    replace (B - length m mod B)%nat with (S (B - (length m mod B + 1))) by lia. reflexivity.
Qed.
Example C16_example :
  let E := toy_cipher in let m := [1;2;3;4;5;6;7;8;9;10;11;12;13;14;15;16;17] in
  cb_run E 8 (cb_setkey E 8 [5]) [MUpdate [1;2;3]; MUpdate (skipn 3 m); MFinal 8; MFinal 9; MUpdate m; MRestart; MUpdate (firstn 8 m); MUpdate (skipn 8 (firstn 16 m)); MFinal 8] =
  [MODone; MODone; MOTag (cbcmac_spec (E [5]) 8 m); MOInvalid; MODone; MODone; MODone; MODone; MOTag (cbcmac_spec (E [5]) 8 (firstn 16 m))]
  /\ cbcmac_spec (E [5]) 8 m <> cbcmac_spec (E [5]) 8 (firstn 16 m).
Proof. vm_compute. split; [reflexivity|discriminate]. Qed.

(** C12 for these MACs: what comes after a successful Final or a Restart does not depend on what came
    before it. *)
Theorem C12_cmac_restarts_cleanly : forall E B p key before last after, B <> 0%nat -> block_map B E -> cmac_poly B = Some p ->
  (forall k, ~ In (MSetKey k) before) -> (last = MRestart \/ exists n, last = MFinal n /\ (n <= B)%nat) ->
  exists out, length out = S (length before) /\
    cm_run E B (cm_setkey E B key) (before ++ last :: after) = out ++ cm_run E B (cm_setkey E B key) after.
Proof.
  intros E B p key before last after HB HE Hp Hk Hl. rewrite !(C15_cmac_history E B p) by auto.
  generalize (@nil Z) at 1. induction before as [|op before IH]; intros m; cbn [app].
  - destruct Hl as [->|(n & -> & Hn)]; cbn [spec_mrun spec_mstep].
    + exists [MODone]. split; reflexivity.
    + rewrite (proj2 (Nat.leb_le _ _)) by auto. eexists [_]. split; reflexivity.
  - assert (Hk' : forall k, ~ In (MSetKey k) before) by (intros k Hi; apply (Hk k); right; auto).
    cbn [spec_mrun]. destruct op as [d|n| |k]; cbn [spec_mstep].
    + destruct (IH Hk' (m ++ d)) as (o & L & ->). exists (MODone :: o). split; [cbn; lia|reflexivity].
    + destruct (Nat.leb n B).
      * destruct (IH Hk' []) as (o & L & ->). eexists (_ :: o). split; [cbn; lia|reflexivity].
      * destruct (IH Hk' m) as (o & L & ->). eexists (_ :: o). split; [cbn; lia|reflexivity].
    + destruct (IH Hk' []) as (o & L & ->). exists (MODone :: o). split; [cbn; lia|reflexivity].
    + exfalso. apply (Hk k). left. reflexivity.
Qed.
Theorem C12_cbcmac_restarts_cleanly : forall E B key before last after, B <> 0%nat -> block_map B E ->
  (forall k, ~ In (MSetKey k) before) -> (last = MRestart \/ exists n, last = MFinal n /\ (n <= B)%nat) ->
  exists out, length out = S (length before) /\
    cb_run E B (cb_setkey E B key) (before ++ last :: after) = out ++ cb_run E B (cb_setkey E B key) after.
Proof.
  intros E B key before last after HB HE Hk Hl. rewrite !C16_cbcmac_history by auto.
  generalize (@nil Z) at 1. induction before as [|op before IH]; intros m; cbn [app].
  - destruct Hl as [->|(n & -> & Hn)]; cbn [spec_mrun spec_mstep].
    + exists [MODone]. split; reflexivity.
    + rewrite (proj2 (Nat.leb_le _ _)) by auto. eexists [_]. split; reflexivity.
  - assert (Hk' : forall k, ~ In (MSetKey k) before) by (intros k Hi; apply (Hk k); right; auto).
    cbn [spec_mrun]. destruct op as [d|n| |k]; cbn [spec_mstep].
    + destruct (IH Hk' (m ++ d)) as (o & L & ->). exists (MODone :: o). split; [cbn; lia|reflexivity].
    + destruct (Nat.leb n B).
      * destruct (IH Hk' []) as (o & L & ->). eexists (_ :: o). split; [cbn; lia|reflexivity].
      * destruct (IH Hk' m) as (o & L & ->). eexists (_ :: o). split; [cbn; lia|reflexivity].
    + destruct (IH Hk' []) as (o & L & ->). exists (MODone :: o). split; [cbn; lia|reflexivity].
    + exfalso. apply (Hk k). left. reflexivity.
Qed.

Print Assumptions C15_cmac_history.
Print Assumptions C15_cmac_of_chunks.
Print Assumptions C16_cbcmac_history.
Print Assumptions C16_zero_padding_collides.
Print Assumptions C12_cmac_restarts_cleanly.
Print Assumptions C12_cbcmac_restarts_cleanly.
