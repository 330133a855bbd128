(** C19 and C67: the checksums are those of their standards, for every message, split and alignment. *)
From Coq Require Import ZArith List Bool Arith Lia.
From Verif Require Import Base HashModel MacModel ChecksumModel ChecksumSpec ChecksumProofs.
Import ListNotations.
Local Open Scope Z_scope.

(** [2 ^ 32 <= u]: unsigned long has at least 32 bits, as C++ requires. *)
Theorem C19_adler32_history : forall u ops, 2 ^ 32 <= u -> Forall cop_ok ops -> adler_run u ops = spec_crun adler_spec [] ops.
Proof. intros. apply adler_run_spec; auto. apply adrep_reset. Qed.
Theorem C19_adler32_of_chunks : forall u ds, 2 ^ 32 <= u -> Forall bytes ds ->
  last (adler_run u (map (CUpdate 0) ds ++ [CFinal 4])) MODone = MOTag (adler_spec (concat ds)).
Proof.
  intros u ds Hu Hd. rewrite C19_adler32_history; auto.
  - change (concat ds) with ([] ++ concat ds). generalize (@nil Z). induction ds as [|d ds IH]; intros m.
    + cbn. rewrite app_nil_r. reflexivity.
    + inversion Hd; subst. cbn [map app spec_crun spec_cstep concat]. rewrite app_assoc, <- (IH ltac:(auto) (m ++ d)).
      assert (N : forall m', exists o l, spec_crun adler_spec m' (map (CUpdate 0) ds ++ [CFinal 4]) = o :: l).
      { intros m'. destruct ds; cbn; eauto. }
      destruct (N (m ++ d)) as (o & l & ->). reflexivity.
  - apply Forall_app. split; [|repeat constructor]. apply Forall_map. eapply Forall_impl; [|exact Hd]. intros d H. split; [lia|exact H].
Qed.

(** RFC 1950 sums of "Wikipedia", in pieces, and the worst case of the deferred reduction: s2 stays below
    2^32 between reductions but would not with reductions twice as rare. *)
Example C19_example :
  adler_spec [87;105;107;105;112;101;100;105;97] = [0x11;0xE6;0x03;0x98] /\
  adler_run (2 ^ 32) [CUpdate 0 [87;105]; CUpdate 2 []; CUpdate 1 [107;105;112;101;100;105;97]; CFinal 5; CFinal 4; CFinal 2; CUpdate 0 [1]; CRestart; CFinal 4] =
  [MODone; MODone; MODone; MOInvalid; MOTag [0x11;0xE6;0x03;0x98]; MOTag [0;0]; MODone; MODone; MOTag [0;0;0;1]] /\
  Forall cop_ok [CUpdate 0 [87;105]; CUpdate 2 []; CUpdate 1 [107;105;112;101;100;105;97]; CFinal 5; CFinal 4; CFinal 2; CUpdate 0 [1]; CRestart; CFinal 4].
Proof. split; [reflexivity|]. split; [vm_compute; reflexivity|]. repeat constructor; cbn; try lia; vm_compute; congruence. Qed.
Example C19_many_0xff : adler_run (2 ^ 32) [CUpdate 0 (repeat 255 4000); CFinal 4] = [MODone; MOTag (adler_spec (repeat 255 4000))].
Proof. apply (C19_adler32_history (2 ^ 32) [CUpdate 0 (repeat 255 4000); CFinal 4]); [lia|]. constructor; [|repeat constructor]. split; [lia|]. apply Forall_repeat. vm_compute. split; congruence. Qed.

(** CRC32 and CRC32C: [a] in [CUpdate a d] is the address of the input modulo 4. *)
Theorem C67_crc32_history : forall ops, Forall cop_ok ops -> crc_run crc32_tab ops = spec_crun (crc_spec POLY_CRC32) [] ops.
Proof. intros. apply crc_run_spec; auto; [vm_compute; split; congruence|apply crc32_tab_ok|constructor]. Qed.
Theorem C67_crc32c_history : forall ops, Forall cop_ok ops -> crc_run crc32c_tab ops = spec_crun (crc_spec POLY_CRC32C) [] ops.
Proof. intros. apply crc_run_spec; auto; [vm_compute; split; congruence|apply crc32c_tab_ok|constructor]. Qed.
(** The check values of the two CRCs ("123456789"): CBF43926 and E3069283. *)
Example C67_example :
  let m := [49;50;51;52;53;54;55;56;57] in
  crc_spec POLY_CRC32 m = [0x26;0x39;0xF4;0xCB] /\ crc_spec POLY_CRC32C m = [0x83;0x92;0x06;0xE3] /\
  crc_run crc32_tab [CUpdate 3 (firstn 7 m); CUpdate 1 (skipn 7 m); CFinal 9; CFinal 4; CUpdate 0 m; CRestart; CUpdate 0 m; CFinal 3] =
  [MODone; MODone; MOInvalid; MOTag [0x26;0x39;0xF4;0xCB]; MODone; MODone; MODone; MOTag [0x26;0x39;0xF4]] /\
  crc_run crc32c_tab [CUpdate 2 m; CFinal 4] = [MODone; MOTag [0x83;0x92;0x06;0xE3]].
Proof. vm_compute. auto. Qed.

(** CRC detects every change that is confined to four consecutive bytes: two messages of equal length that
    differ only in a window of four bytes have different checksums. *)
Lemma fold_inj : forall P d c1 c2, 2 ^ 31 <= P < 2 ^ 32 -> 0 <= c1 < 2 ^ 32 -> 0 <= c2 < 2 ^ 32 -> bytes d ->
  fold_left (lfsr_byte P) d c1 = fold_left (lfsr_byte P) d c2 -> c1 = c2.
Proof.
  intros P d c1 c2 HP. revert c1 c2.
  assert (L : forall x y, 0 <= x < 2 ^ 32 -> 0 <= y < 2 ^ 32 -> lfsr P x = lfsr P y -> x = y).
  { assert (TP : Z.testbit P 31 = true). { apply Z.testbit_true; [lia|]. rewrite <- (Z.div_unique P (2 ^ 31) 1 (P - 2 ^ 31)) by lia. reflexivity. }
    assert (HB : forall z, 0 <= z < 2 ^ 32 -> Z.testbit (lfsr P z) 31 = Z.odd z).
    { intros z Hz. assert (Z.testbit (z / 2) 31 = false).
      { rewrite Z.testbit_false, Z.div_div, Z.div_small by lia. reflexivity. }
      unfold lfsr. destruct (Z.odd z); auto. rewrite Z.lxor_spec, H, TP. reflexivity. }
    intros x y Hx Hy E. assert (O : Z.odd x = Z.odd y) by (rewrite <- !HB by auto; congruence).
    unfold lfsr in E. rewrite <- O in E. assert (D : x / 2 = y / 2).
    { destruct (Z.odd x); auto. apply (f_equal (fun v => Z.lxor v P)) in E. rewrite !Z.lxor_assoc, !Z.lxor_nilpotent, !Z.lxor_0_r in E. exact E. }
    rewrite (Z.div_mod x 2), (Z.div_mod y 2), D, (Zmod_odd x), (Zmod_odd y), O by lia. reflexivity. }
  assert (I : forall n x y, 0 <= x < 2 ^ 32 -> 0 <= y < 2 ^ 32 -> Nat.iter n (lfsr P) x = Nat.iter n (lfsr P) y -> x = y).
  { induction n as [|n IH]; intros x y Hx Hy E; [exact E|]. rewrite !iter_S in E. apply IH; auto. apply L; auto; apply iter_range; auto; lia. }
  induction d as [|b d IH]; intros c1 c2 H1 H2 Hd E; [exact E|]. inversion Hd as [|? ? Hb Hd']; subst. cbn [fold_left] in E.
  apply IH in E; auto; try (apply lfsr_byte_range; auto; lia). unfold lfsr_byte in E.
  assert (B : 0 <= b < 2 ^ 32) by (unfold byte in Hb; lia).
  apply I in E; try (apply lxor_range; lia).
  apply (f_equal (fun v => Z.lxor v b)) in E. rewrite !Z.lxor_assoc, !Z.lxor_nilpotent, !Z.lxor_0_r in E. exact E.
Qed.
Lemma crc_spec_detects : forall P pre w1 w2 post, 2 ^ 31 <= P < 2 ^ 32 ->
  bytes pre -> bytes w1 -> bytes w2 -> bytes post -> length w1 = 4%nat -> length w2 = 4%nat -> w1 <> w2 ->
  crc_spec P (pre ++ w1 ++ post) <> crc_spec P (pre ++ w2 ++ post).
Proof.
  intros P pre w1 w2 post HP Hp H1 H2 Hq L1 L2 N E. apply N. unfold crc_spec in E.
  assert (R : forall m, bytes m -> 0 <= fold_left (lfsr_byte P) m 0xffffffff < 2 ^ 32).
  { intros m Hm. pattern m. revert Hm. induction m as [|b m IH] using rev_ind; intros Hm; [cbn; lia|].
    apply bytes_app in Hm. destruct Hm as [Hm Hb]. inversion Hb; subst. rewrite fold_left_app. cbn [fold_left]. apply lfsr_byte_range; auto; try lia. }
  assert (B : forall w, bytes w -> bytes (pre ++ w ++ post)) by (intros; rewrite !bytes_app; auto).
  assert (X : forall z, 0 <= z < 2 ^ 32 -> 0 <= Z.lxor z 0xffffffff < 256 ^ Z.of_nat 4).
  { intros z Hz. change (256 ^ Z.of_nat 4) with (2 ^ 32). apply lxor_range; lia. }
  apply (f_equal le_val) in E. rewrite !le_val_bytes_mod, !Z.mod_small in E by (apply X, R, B; auto).
  apply (f_equal (fun v => Z.lxor v 0xffffffff)) in E. rewrite !Z.lxor_assoc, !Z.lxor_nilpotent, !Z.lxor_0_r in E.
  rewrite !fold_left_app in E. set (c := fold_left (lfsr_byte P) pre 0xffffffff) in *.
  assert (Hc : 0 <= c < 2 ^ 32) by (apply R; auto).
  assert (RW : forall w, bytes w -> 0 <= fold_left (lfsr_byte P) w c < 2 ^ 32).
  { intros w Hw. unfold c. rewrite <- fold_left_app. apply R. apply bytes_app; auto. }
  apply fold_inj in E; auto.
  (* four bytes: the register after them is an injective function of register xor word *)
  set (tab := map (fun i => Nat.iter 8 (lfsr P) (Z.of_nat i)) (seq 0 256)).
  assert (Ht : forall i, (i < 256)%nat -> nth i tab 0 = Nat.iter 8 (lfsr P) (Z.of_nat i)).
  { intros i Hi. unfold tab. rewrite (nth_indep _ 0 (Nat.iter 8 (lfsr P) (Z.of_nat 0))) by (rewrite map_length, seq_length; auto).
    rewrite (map_nth (fun i => Nat.iter 8 (lfsr P) (Z.of_nat i))), seq_nth by auto. reflexivity. }
  rewrite <- (shifts_bytes P tab ltac:(lia) Ht w1 c) in E by (auto; lia).
  rewrite <- (shifts_bytes P tab ltac:(lia) Ht w2 c) in E by (auto; lia). rewrite L1, L2 in E.
  assert (LV : forall w, bytes w -> length w = 4%nat -> 0 <= le_val w < 2 ^ 32).
  { intros w Hw Lw. pose proof (le_val_bounds w Hw) as Q. rewrite Lw in Q. exact Q. }
  assert (Z4 : forall n x, 0 <= x < 2 ^ 32 -> Nat.iter n (crc_shift tab) x = fold_left (lfsr_byte P) (repeat 0 n) x).
  { induction n as [|n IH]; intros x Hx; [reflexivity|]. rewrite iter_S'. cbn [repeat fold_left].
    assert (E0 : crc_shift tab x = lfsr_byte P x 0).
    { rewrite (crc_shift_spec P tab Ht) by lia. unfold lfsr_byte, l8. rewrite Z.lxor_0_r. reflexivity. }
    rewrite E0. apply IH. apply lfsr_byte_range; [lia|auto|unfold byte; lia]. }
  rewrite !Z4 in E by (apply lxor_range; auto; lia).
  apply fold_inj in E; auto; try (apply lxor_range; auto; lia).
  - apply (f_equal (Z.lxor c)) in E. rewrite <- !Z.lxor_assoc, !Z.lxor_nilpotent, !Z.lxor_0_l in E.
    apply le_val_inj; auto. congruence.
  - apply Forall_repeat. unfold byte. lia.
Qed.
Theorem C67_crc_detects_bursts : forall tab P, In (tab, P) [(crc32_tab, POLY_CRC32); (crc32c_tab, POLY_CRC32C)] ->
  forall pre w1 w2 post, bytes pre -> bytes w1 -> bytes w2 -> bytes post -> length w1 = 4%nat -> length w2 = 4%nat -> w1 <> w2 ->
  crc_run tab [CUpdate 0 (pre ++ w1 ++ post); CFinal 4] <> crc_run tab [CUpdate 0 (pre ++ w2 ++ post); CFinal 4].
Proof.
  intros tab P HT pre w1 w2 post Hp H1 H2 Hq L1 L2 N.
  assert (O : forall w, bytes w -> Forall cop_ok [CUpdate 0 (pre ++ w ++ post); CFinal 4]).
  { intros w Hw. repeat constructor. rewrite !bytes_app. auto. }
  assert (R : 2 ^ 31 <= P < 2 ^ 32 /\ forall w, bytes w -> crc_run tab [CUpdate 0 (pre ++ w ++ post); CFinal 4] = [MODone; MOTag (firstn 4 (crc_spec P (pre ++ w ++ post)))]).
  { destruct HT as [HT|[HT|[]]]; injection HT as <- <-; (split; [vm_compute; split; congruence|]); intros w Hw; rewrite ?C67_crc32_history, ?C67_crc32c_history by auto; reflexivity. }
  destruct R as [RP R]. rewrite !R by auto. intros E.
  apply (crc_spec_detects P pre w1 w2 post); auto.
  assert (F : forall m, firstn 4 (crc_spec P m) = crc_spec P m) by (intros; apply firstn_all2; unfold crc_spec; rewrite le_bytes_length; lia).
  rewrite !F in E. congruence.
Qed.
Example C67_detects_example :
  crc_run crc32_tab [CUpdate 0 [1;2;3;4;5;6]; CFinal 4] <> crc_run crc32_tab [CUpdate 0 [1;2;7;4;5;6]; CFinal 4].
Proof.
  apply (C67_crc_detects_bursts crc32_tab POLY_CRC32 (or_introl eq_refl) [1] [2;3;4;5] [2;7;4;5] [6]); try reflexivity; try (repeat constructor; vm_compute; congruence).
Qed.

Print Assumptions C19_adler32_history.
Print Assumptions C19_adler32_of_chunks.
Print Assumptions C67_crc32_history.
Print Assumptions C67_crc32c_history.
Print Assumptions C67_crc_detects_bursts.
