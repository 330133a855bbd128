(** CCM obeys the laws of the framework. *)
From Coq Require Import ZArith List Bool Arith Lia.
From Verif Require Import Base Blocks HashModel ModesModel MacModel MacSpec MacProofs Poly1305Proofs AeadModel AeadSpec AeadProofs AeadGcmProofs.
Import ListNotations.
Local Open Scope Z_scope.

Lemma be_bytes_cat : forall a b x y, 0 <= x -> 0 <= y < 256 ^ Z.of_nat b -> be_bytes (a + b) (x * 256 ^ Z.of_nat b + y) = be_bytes a x ++ be_bytes b y.
Proof.
  intros a b x y Hx Hy. apply be_val_inj.
  - apply be_bytes_bytes.
  - rewrite bytes_app. split; apply be_bytes_bytes.
  - rewrite app_length, !be_bytes_length. reflexivity.
  - rewrite be_val_app, be_bytes_length, !be_val_bytes_mod. rewrite (Z.mod_small y) by lia.
    rewrite Nat2Z.inj_add, Z.pow_add_r by lia. set (B := 256 ^ Z.of_nat b) in *. assert (0 < B) by lia. set (A := 256 ^ Z.of_nat a).
    assert (0 < A) by (apply Z.pow_pos_nonneg; lia).
    symmetry. apply Z.mod_unique_pos with (q := x / A).
    + pose proof (Z.mod_pos_bound x A ltac:(lia)). nia.
    + pose proof (Z.div_mod x A ltac:(lia)). nia.
Qed.
Lemma be_bytes_tail : forall a b v, 0 <= v < 256 ^ Z.of_nat b -> be_bytes (a + b) v = repeat 0 a ++ be_bytes b v.
Proof.
  intros a b v H. replace v with (0 * 256 ^ Z.of_nat b + v) at 1 by lia. rewrite be_bytes_cat by lia. f_equal.
  apply be_val_inj.
  - apply be_bytes_bytes.
  - apply bytes_repeat0.
  - rewrite be_bytes_length, repeat_length. reflexivity.
  - rewrite be_val_bytes_mod, Z.mod_0_l by (apply Z.pow_nonzero; lia). clear. induction a as [|a IH]; [reflexivity|].
    change (repeat 0 (S a)) with ([0] ++ repeat 0 a). rewrite be_val_app, <- IH. reflexivity.
Qed.
Lemma xor_at_0 : forall B c d, length c = B -> (length d <= B)%nat -> xor_at 0 d c = xz B c d.
Proof.
  intros B c d Hc Hd. rewrite <- (xz_nil B c Hc) at 1. exact (xor_at_xz B c [] d Hc Hd).
Qed.

Section Ccm.
  Variable e : list Z -> list Z.
  Variable t : nat.
  Hypothesis He : forall b, length b = 16%nat -> length (e b) = 16%nat /\ bytes (e b).
  Hypothesis Ht : (4 <= t <= 16)%nat.
  Notation md := (ccm_mode e t).
  Notation id := (ccm_ideal e t).
  Let He2 : forall k b, length b = 16%nat -> length ((fun _ : list Z => e) k b) = 16%nat /\ bytes ((fun _ : list Z => e) k b) := fun _ => He.
  Notation mac := (chn (fun _ => e) 16 []).

  Lemma mac_length : forall m, length (mac m) = 16%nat.
  Proof. intros. apply (chn_length (fun _ => e) 16 ltac:(lia) He2). Qed.
  Lemma mac_app : forall m d, (length m mod 16 = 0)%nat -> mac (m ++ d) = fold_left (cstep (fun _ => e) []) (blocks 16 d) (mac m).
  Proof. intros. apply (chn_app (fun _ => e) 16 ltac:(lia)). auto. Qed.
  Lemma mac_flush : forall m r, (length m mod 16 = 0)%nat -> (0 < length r <= 16)%nat -> mac (m ++ r ++ repeat 0 (16 - length r)) = e (xz 16 (mac m) r).
  Proof. intros m r Hm Hr. apply (chn_block (fun _ => e) 16 ltac:(lia)); auto. rewrite app_length, repeat_length. lia. Qed.

  Definition c0 (iv : list Z) : Z := be_val (ccm_counter iv 0).
  Definition c_at (iv : list Z) (n : nat) : ctrs := mkC (c0 iv) ((c0 iv + 1) mod 256 ^ 16) n.
  Definition b0 (iv : list Z) (h m : Z) : list Z :=
    ((if 0 <? h then 64 else 0) + 8 * ((Z.of_nat t - 2) / 2) + (Z.of_nat (ccm_q iv) - 1)) :: iv ++ be_bytes (ccm_q iv) m.
  Definition pre (l : option (Z * Z)) : list Z :=
    match l with
    | None => []
    | Some (h, _) => if 0 <? h then if h <? 2 ^ 16 - 2 ^ 8 then be_bytes 2 h else if h <? 2 ^ 32 then [255; 254] ++ be_bytes 4 h else [255; 255] ++ be_bytes 8 h else []
    end.
  Definition ivok (iv : list Z) : Prop := bytes iv /\ (7 <= length iv <= 13)%nat.
  Definition core (iv : list Z) (h mm : Z) (n : nat) (m : ccm) : Prop :=
    ivok iv /\ cc_l m = ccm_q iv /\ cc_msg m = mm /\ cc_aad m = h /\ cc_ctr m = c_at iv n /\ 0 <= mm < 2 ^ (8 * Z.of_nat (ccm_q iv)).
  Definition CK (m : ccm) : Prop := length (cc_cbc m) = 16%nat.
  Definition CH (iv : list Z) (l : option (Z * Z)) (s : list Z) (m : ccm) : Prop :=
    exists h mm, l = Some (h, mm) /\ core iv h mm 0 m /\ cc_cbc m = mac (b0 iv h mm ++ s).
  Definition CB (iv : list Z) (l : option (Z * Z)) (hdr : list Z) (n : nat) (s : list Z) (m : ccm) : Prop :=
    exists mm, l = Some (len64 hdr, mm) /\ core iv (len64 hdr) mm n m /\ cc_cbc m = mac ((b0 iv (len64 hdr) mm ++ pad16 (pre l ++ hdr)) ++ s).
  Definition CC (iv hdr txt : list Z) (m : ccm) : Prop :=
    ivok iv /\ c_iv (cc_ctr m) = c0 iv /\ cc_cbc m = ccm_mac e t iv hdr txt.

  Lemma b0_length : forall iv h m, ivok iv -> length (b0 iv h m) = 16%nat.
  Proof. intros iv h m [_ H]. unfold b0. cbn [length]. rewrite app_length, be_bytes_length. unfold ccm_q. lia. Qed.
  Lemma counter_ok : forall iv i, ivok iv -> length (ccm_counter iv i) = 16%nat /\ bytes (ccm_counter iv i).
  Proof.
    intros iv i [H1 H2]. unfold ccm_counter. cbn [length]. rewrite app_length, be_bytes_length. unfold ccm_q. split; [lia|].
    constructor; [unfold byte; lia|]. apply bytes_app. split; [exact H1|apply be_bytes_bytes].
  Qed.
  Lemma c0_bound : forall iv, ivok iv -> 0 <= c0 iv < 256 ^ 16.
  Proof. intros iv H. destruct (counter_ok iv 0 H) as [A B]. pose proof (be_val_bounds _ B) as X. rewrite A in X. exact X. Qed.
  Lemma aad_pre : forall hdr mm, ccm_aad hdr = pre (Some (len64 hdr, mm)) ++ hdr.
  Proof.
    intros hdr mm. unfold ccm_aad, pre, len64. destruct (Nat.eqb_spec (length hdr) 0) as [E|E].
    - rewrite E. destruct hdr; [reflexivity|discriminate E].
    - destruct (Z.ltb_spec 0 (Z.of_nat (length hdr))); [|lia]. destruct (_ <? _); [reflexivity|]. destruct (_ <? _); rewrite <- app_assoc; reflexivity.
  Qed.
  (** The counter blocks. *)
  Lemma counter_add : forall iv i, ivok iv -> 0 <= i < 2 ^ (8 * Z.of_nat (ccm_q iv)) -> be_bytes 16 (c0 iv + i) = ccm_counter iv i.
  Proof.
    intros iv i H Hi. pose proof H as [Bv Lv]. unfold c0, ccm_counter.
    assert (Ep : 2 ^ (8 * Z.of_nat (ccm_q iv)) = 256 ^ Z.of_nat (ccm_q iv)) by (change 256 with (2 ^ 8); rewrite <- Z.pow_mul_r by lia; reflexivity). rewrite Ep in Hi.
    set (w := (Z.of_nat (ccm_q iv) - 1) :: iv). assert (Bw : bytes w) by (constructor; [unfold byte, ccm_q; lia|exact Bv]).
    change ((Z.of_nat (ccm_q iv) - 1) :: iv ++ be_bytes (ccm_q iv) 0) with (w ++ be_bytes (ccm_q iv) 0).
    change ((Z.of_nat (ccm_q iv) - 1) :: iv ++ be_bytes (ccm_q iv) i) with (w ++ be_bytes (ccm_q iv) i).
    rewrite be_val_app, be_bytes_length, be_val_be_bytes by (split; [lia|apply Z.pow_pos_nonneg; lia]). rewrite Z.add_0_r.
    replace 16%nat with (length w + ccm_q iv)%nat by (cbn [w length]; unfold ccm_q; lia). pose proof (be_val_bounds w Bw).
    rewrite be_bytes_cat by lia. f_equal. apply be_bytes_val. exact Bw.
  Qed.
  Lemma counter_0 : forall iv, ivok iv -> be_bytes 16 (c0 iv) = ccm_counter iv 0.
  Proof.
    intros iv H. rewrite <- (Z.add_0_r (c0 iv)). apply counter_add; [exact H|]. split; [lia|]. apply Z.pow_pos_nonneg; lia.
  Qed.
  Lemma ccm_stream_ok : forall iv n p, ivok iv -> Z.of_nat p < 2 ^ (8 * Z.of_nat (ccm_q iv)) - 1 -> ctr_keybyte e false 16 (c_at iv n) p = ccm_keystream e iv p.
  Proof.
    intros iv n p H Hp. unfold ctr_keybyte, ccm_keystream. cbn [c_at c_start]. unfold ctr_after. f_equal. f_equal.
    rewrite <- counter_add; [|exact H|].
    - change (256 ^ Z.of_nat 16) with (256 ^ 16). rewrite Zplus_mod_idemp_l. apply be_val_inj; try apply be_bytes_bytes; [rewrite !be_bytes_length; reflexivity|].
      rewrite !be_val_bytes_mod. change (256 ^ Z.of_nat 16) with (256 ^ 16). rewrite Z.mod_mod by lia. f_equal. lia.
    - pose proof (Nat.div_le_upper_bound p 16 p ltac:(lia) ltac:(lia)). lia.
  Qed.
  Lemma ccm_cipher_ok : forall iv n d, ivok iv -> Z.of_nat n + len64 d <= 2 ^ (8 * Z.of_nat (ccm_q iv)) - 1 ->
    snd (ctr_process e false 16 (c_at iv n) d) = i_crypt id iv n d.
  Proof.
    intros iv n d H Hb. cbn [ctr_process snd]. unfold i_crypt. f_equal. cbn [c_at c_pos]. apply map_ext_in. intros p Hp. apply in_seq in Hp.
    rewrite ccm_stream_ok; [reflexivity|exact H|]. unfold len64 in Hb. lia.
  Qed.

  Lemma resync_ok : forall b iv, ivok iv -> ccm_resync b iv =
    mkB (b_state b) (ccm_counter iv 0) (b_num b) (b_hdr b) (b_msg b) (b_ftr b) (mkCC (ccm_q iv) 0 0 (cc_cbc (b_m b)) (c_at iv 0)).
  Proof.
    intros b iv H. pose proof H as [Bv Lv]. unfold ccm_resync. set (q := ccm_q iv).
    assert (EL : (if Nat.ltb 8 (16 - 1 - length iv) then 8%nat else (16 - 1 - length iv)%nat) = q) by (destruct (Nat.ltb_spec 8 (16 - 1 - length iv)); unfold q, ccm_q; lia).
    cbv zeta. rewrite EL. assert (Eb : Z.of_nat (q - 1) :: iv ++ repeat 0 (16 - 1 - length iv) = ccm_counter iv 0).
    { unfold ccm_counter. fold q. f_equal; [unfold q, ccm_q; lia|]. f_equal.
      pose proof (be_bytes_tail q 0 0 ltac:(cbn; lia)) as X. rewrite Nat.add_0_r in X. rewrite X. cbn [be_bytes]. rewrite app_nil_r. f_equal. }
    rewrite Eb. reflexivity.
  Qed.

  Lemma specify_ok : forall b iv h m, ivok iv -> length (cc_cbc (b_m b)) = 16%nat -> 0 <= h < 2 ^ 64 -> 0 <= m < 2 ^ (8 * Z.of_nat (ccm_q iv)) ->
    b_buf b = ccm_counter iv 0 -> b_num b = 0%nat -> cc_l (b_m b) = ccm_q iv ->
    exists buf, ccm_specify e t b h m = mkB (b_state b) buf (length (pre (Some (h, m)))) (b_hdr b) (b_msg b) (b_ftr b)
        (mkCC (ccm_q iv) m h (mac (b0 iv h m)) (cc_ctr (b_m b))) /\ length buf = 16%nat /\ bytes buf /\ firstn (length (pre (Some (h, m)))) buf = pre (Some (h, m)).
  Proof.
    intros b iv h m H Hc Hh Hm Hb Hn Hl. pose proof H as [Bv Lv]. destruct (counter_ok iv 0 H) as [LC BC]. unfold ccm_specify. rewrite Hl.
    set (q := ccm_q iv) in *. assert (Hq : (q = 15 - length iv)%nat) by reflexivity.
    assert (EF : ((if 0 <? h then 64 else 0) + 8 * ((Z.of_nat t - 2) / 2) + (Z.of_nat q - 1)) mod 256 = (if 0 <? h then 64 else 0) + 8 * ((Z.of_nat t - 2) / 2) + (Z.of_nat q - 1)).
    { apply Z.mod_small. assert (1 <= (Z.of_nat t - 2) / 2 <= 7) by (split; [apply Z.div_le_lower_bound|apply Z.div_le_upper_bound]; lia). destruct (0 <? h); lia. }
    rewrite EF. set (flag := (if 0 <? h then 64 else 0) + 8 * ((Z.of_nat t - 2) / 2) + (Z.of_nat q - 1)).
    assert (E3 : write 1 (firstn (15 - q) (skipn 1 (b_buf b))) (write 8 (be_bytes 8 m) (write 0 [flag] (cc_cbc (b_m b)))) = b0 iv h m).
    { rewrite Hb. unfold ccm_counter. cbn [skipn]. replace (15 - q)%nat with (length iv) by lia. rewrite firstn_app_exact.
      destruct (cc_cbc (b_m b)) as [|x c]; [discriminate Hc|]. cbn [length] in Hc. injection Hc as Hc. unfold b0. fold q. fold flag.
      change (write 0 [flag] (x :: c)) with (flag :: c).
      assert (E8 : write 8 (be_bytes 8 m) (flag :: c) = (flag :: firstn 7 c) ++ be_bytes 8 m).
      { unfold write. rewrite be_bytes_length. rewrite skipn_all2 by (cbn [length]; lia). rewrite app_nil_r. reflexivity. }
      assert (L7 : length (firstn 7 c) = 7%nat) by (apply firstn_length_le; lia). set (c7 := firstn 7 c) in *.
      rewrite E8. unfold write. cbn [firstn app]. f_equal. f_equal. cbn [Nat.add skipn].
      assert (Ep : 2 ^ (8 * Z.of_nat q) = 256 ^ Z.of_nat q) by (change 256 with (2 ^ 8); rewrite <- Z.pow_mul_r by lia; reflexivity). rewrite Ep in Hm.
      replace 8%nat with ((8 - q) + q)%nat at 1 by lia. rewrite be_bytes_tail by exact Hm.
      rewrite app_assoc, skipn_app_ge by (rewrite app_length, L7, repeat_length; lia).
      rewrite app_length, L7, repeat_length. replace (length iv - (7 + (8 - q)))%nat with 0%nat by lia. reflexivity. }
    rewrite E3. clear E3.
    assert (EM : e (b0 iv h m) = mac (b0 iv h m)).
    { pose proof (chn_block (fun _ => e) 16 ltac:(lia) [] [] (b0 iv h m) eq_refl (b0_length iv h m H)) as X. cbn [app] in X. rewrite X.
      f_equal. unfold chn. rewrite blocks_nil by lia. cbn [chain fold_left]. symmetry. apply xorl_zeros_l. rewrite b0_length by exact H. lia. }
    rewrite EM. cbn [pre]. destruct (Z.ltb_spec 0 h) as [H0|H0].
    - destruct (Z.ltb_spec h (2 ^ 16 - 2 ^ 8)) as [H1|H1]; [|destruct (Z.ltb_spec h (2 ^ 32)) as [H2|H2]].
      + exists (write 0 (be_bytes 2 h) (b_buf b)). split; [reflexivity|]. rewrite Hb.
        assert (Hw : (0 + length (be_bytes 2 h) <= length (ccm_counter iv 0))%nat) by (rewrite be_bytes_length, LC; lia).
        split; [rewrite write_length by exact Hw; exact LC|]. split; [apply bytes_write; auto; apply be_bytes_bytes|]. exact (write_firstn 0 _ _ Hw).
      + exists (write 2 (be_bytes 4 h) (write 0 [255; 254] (b_buf b))). split; [reflexivity|]. rewrite Hb.
        assert (Hw0 : (0 + length [255%Z; 254%Z] <= length (ccm_counter iv 0))%nat) by (rewrite LC; cbn; lia).
        assert (Hw : (2 + length (be_bytes 4 h) <= length (write 0 [255%Z; 254%Z] (ccm_counter iv 0)))%nat) by (rewrite be_bytes_length, write_length, LC by exact Hw0; lia).
        split; [rewrite write_length, write_length by assumption; exact LC|]. split.
        { apply bytes_write; [apply be_bytes_bytes|]. apply bytes_write; auto. repeat constructor; unfold byte; lia. }
        pose proof (write_firstn 2 _ _ Hw) as X. rewrite app_length. cbn [length]. rewrite be_bytes_length in *. rewrite X. reflexivity.
      + exists (write 2 (be_bytes 8 h) (write 0 [255; 255] (b_buf b))). split; [reflexivity|]. rewrite Hb.
        assert (Hw0 : (0 + length [255%Z; 255%Z] <= length (ccm_counter iv 0))%nat) by (rewrite LC; cbn; lia).
        assert (Hw : (2 + length (be_bytes 8 h) <= length (write 0 [255%Z; 255%Z] (ccm_counter iv 0)))%nat) by (rewrite be_bytes_length, write_length, LC by exact Hw0; lia).
        split; [rewrite write_length, write_length by assumption; exact LC|]. split.
        { apply bytes_write; [apply be_bytes_bytes|]. apply bytes_write; auto. repeat constructor; unfold byte; lia. }
        pose proof (write_firstn 2 _ _ Hw) as X. rewrite app_length. cbn [length]. rewrite be_bytes_length in *. rewrite X. reflexivity.
    - exists (b_buf b). rewrite Hb. split; [|repeat split; auto]. unfold set_m. rewrite Hb, Hn. reflexivity.
  Qed.
  Lemma pre_length : forall l, (length (pre l) < 16)%nat.
  Proof.
    intros [[h m]|]; cbn [pre]; [|cbn; lia]. destruct (0 <? h); [|cbn; lia]. destruct (_ <? _); [rewrite be_bytes_length; lia|].
    destruct (_ <? _); rewrite app_length, be_bytes_length; cbn [length]; lia.
  Qed.

  Lemma flush_ok : forall (b : base ccm) x p s, (b_num b < 16)%nat -> length (b_buf b) = 16%nat -> s = p ++ firstn (b_num b) (b_buf b) ->
    (length x mod 16 = 0)%nat -> (length p mod 16 = 0)%nat -> cc_cbc (b_m b) = mac (x ++ p) ->
    exists n, ccm_flush e b = mkB (b_state b) (b_buf b) n (b_hdr b) (b_msg b) (b_ftr b) (ccm_set_cbc (b_m b) (mac (x ++ pad16 s))).
  Proof.
    intros b x p s Hn Hl Es Hx Hp E. assert (Lf : length (firstn (b_num b) (b_buf b)) = b_num b) by (apply firstn_length_le; lia).
    assert (P : pad16 s = if Nat.ltb 0 (b_num b) then p ++ firstn (b_num b) (b_buf b) ++ repeat 0 (16 - b_num b) else p).
    { rewrite Es, pad16_split by (auto; lia). rewrite Lf. reflexivity. }
    unfold ccm_flush. destruct (Nat.ltb_spec 0 (b_num b)).
    - exists 0%nat. unfold set_num, set_m. cbn [b_state b_buf b_num b_hdr b_msg b_ftr b_m]. f_equal. f_equal.
      rewrite P, E, (xor_at_0 16) by (try apply mac_length; lia). rewrite app_assoc. pose proof (mac_flush (x ++ p) (firstn (b_num b) (b_buf b))) as X. rewrite Lf in X.
      symmetry. apply X; [|lia]. rewrite app_length, <- Nat.add_mod_idemp_l, Hx by lia. exact Hp.
    - exists (b_num b). rewrite P, <- E. destruct b as [? ? ? ? ? ? m]. destruct m. reflexivity.
  Qed.
  Lemma blocks_ok : forall x p (m : ccm) d, (length x mod 16 = 0)%nat -> (length p mod 16 = 0)%nat -> cc_cbc m = mac (x ++ p) ->
    ccm_blocks e m d = (ccm_set_cbc m (mac (x ++ p ++ firstn (length d - length d mod 16) d)), (length d mod 16)%nat).
  Proof.
    intros x p m d Hx Hp E. unfold ccm_blocks. rewrite E. rewrite (apb_xor_spec (fun _ => e) 16 ltac:(lia) He2 []) by (try apply mac_length; lia).
    rewrite firstn_all, app_assoc, (mac_app (x ++ p)).
    - rewrite blocks_trunc by lia. reflexivity.
    - rewrite app_length, <- Nat.add_mod_idemp_l, Hx by lia. exact Hp.
  Qed.

  Lemma fold_length : forall c d, length c = 16%nat -> length (fold_left (cstep (fun _ => e) []) (blocks 16 d) c) = 16%nat.
  Proof.
    intros c d. pose proof (blocks_forall 16 d ltac:(lia)) as F. revert c. induction F as [|b l Hb F IH]; intros c Hc; [exact Hc|]. cbn [fold_left]. apply IH. apply He.
    rewrite xorl_length. lia.
  Qed.

  Lemma b0_spec : forall iv hdr txt, ccm_b0 t iv hdr txt = b0 iv (len64 hdr) (len64 txt).
  Proof.
    intros. unfold ccm_b0, b0. f_equal. f_equal. f_equal. unfold len64. destruct (Nat.eqb_spec (length hdr) 0), (Z.ltb_spec 0 (Z.of_nat (length hdr))); lia.
  Qed.
  Lemma mac_ok : forall iv hdr txt, ccm_mac e t iv hdr txt = mac (b0 iv (len64 hdr) (len64 txt) ++ pad16 (ccm_aad hdr) ++ pad16 txt).
  Proof. intros. unfold ccm_mac. rewrite b0_spec. reflexivity. Qed.

  Theorem ccm_laws : laws md id 16 CK pre CH CB CC.
  Proof.
    assert (IVB : forall iv, i_iv_ok id (length iv) = true -> bytes iv -> ivok iv).
    { intros iv H Hb. cbn [ccm_ideal i_iv_ok] in H. apply andb_prop in H. destruct H as [H1 H2]. apply Nat.leb_le in H1. apply Nat.leb_le in H2. split; [exact Hb|lia]. }
    assert (MX : forall iv, ivok iv -> (if Nat.ltb (ccm_q iv) 8 then 2 ^ (8 * Z.of_nat (ccm_q iv)) - 1 else 2 ^ 64 - 1) = 2 ^ (8 * Z.of_nat (ccm_q iv)) - 1).
    { intros iv [_ H]. destruct (Nat.ltb_spec (ccm_q iv) 8) as [L|L]; [reflexivity|]. replace (ccm_q iv) with 8%nat by (unfold ccm_q in *; lia). reflexivity. }
    assert (B0 : forall iv h m, ivok iv -> (length (b0 iv h m) mod 16 = 0)%nat) by (intros; rewrite b0_length by auto; reflexivity).
    assert (FK : forall b, (b_num b < 16)%nat -> length (b_buf b) = 16%nat -> CK (b_m b) -> CK (b_m (ccm_flush e b))).
    { intros b Hn Hl Hk. unfold ccm_flush. destruct (Nat.ltb 0 (b_num b)); [|exact Hk]. unfold CK in *. cbn [set_num set_m b_m ccm_set_cbc cc_cbc]. apply He.
      rewrite (xor_at_0 16) by (try exact Hk; rewrite firstn_length_le; lia). apply xz_length; [exact Hk|rewrite firstn_length_le; lia]. }
    assert (FS : forall b, same_base b (ccm_flush e b) /\ b_buf (ccm_flush e b) = b_buf b /\ (b_num b < 16 -> b_num (ccm_flush e b) < 16)%nat).
    { intros b. unfold ccm_flush. destruct (Nat.ltb 0 (b_num b)); cbn [set_num set_m b_num b_buf]; repeat split; auto; lia. }
    constructor.
    - cbn. lia.
    - right. reflexivity.
    - reflexivity.
    - reflexivity.
    - reflexivity.
    - reflexivity.
    - cbn [ccm_ideal i_maxh]. lia.
    - intros iv l s m (h & mm & _ & ([_ Lv] & _ & _ & _ & _ & Hmm) & _). cbn [ccm_ideal i_maxm]. split; [lia|].
      pose proof (Z.pow_le_mono_r 2 (8 * Z.of_nat (ccm_q iv)) 64 ltac:(lia) ltac:(unfold ccm_q; lia)). lia.
    - intros iv l hdr n s m (mm & _ & ([_ Lv] & _ & _ & _ & _ & Hmm) & _). cbn [ccm_ideal i_maxm]. split; [lia|].
      pose proof (Z.pow_le_mono_r 2 (8 * Z.of_nat (ccm_q iv)) 64 ltac:(lia) ltac:(unfold ccm_q; lia)). lia.
    - intros b iv Hk Hl Hb Hn Hiv Biv. pose proof (IVB iv Hiv Biv) as Hv. cbn [ccm_mode md_resync md_maxm]. rewrite resync_ok by exact Hv.
      destruct (counter_ok iv 0 Hv) as [LC BC]. cbn [b_m cc_l]. split; [repeat split|]. split; [apply MX; exact Hv|]. split.
      + intros _. unfold wfb. cbn [b_num b_buf b_m ccm_mode md_bs]. rewrite Hn. repeat split; auto. lia.
      + intros X. discriminate X.
    - intros b iv h m Hk Hl Hb Hn Hiv Biv Hh Hh64 Hm. pose proof (IVB iv Hiv Biv) as Hv. cbn [ccm_mode md_resync md_specify]. rewrite resync_ok by exact Hv.
      cbn [ccm_ideal i_maxm] in Hm. cbn zeta. set (b1 := set_state _ SIVSet).
      destruct (specify_ok b1 iv h m Hv Hk ltac:(lia) ltac:(lia) eq_refl Hn eq_refl) as (buf & E & Lb & Bb & Fb). rewrite E.
      cbn [b_state b_hdr b_msg b_ftr]. do 4 (split; [reflexivity|]). pose proof (pre_length (Some (h, m))) as Lp. split.
      + intros _. unfold wfb. cbn [b_num b_buf b_m ccm_mode md_bs]. repeat split; auto. unfold CK. cbn [cc_cbc]. apply mac_length.
      + exists []. cbn [b_num b_buf b_m ccm_mode md_bs app]. split; [symmetry; exact Fb|]. split; [reflexivity|]. split; [exact Lp|]. split; [|auto].
        exists h, m. split; [reflexivity|]. split; [|rewrite app_nil_r; reflexivity]. unfold core. cbn [cc_l cc_msg cc_aad cc_ctr b1 set_state b_m]. repeat split; auto; try lia; apply Hv.
    - intros iv l p m d (h & mm & El & C & E) Hp Hd Bd0. cbn [ccm_mode md_bs md_blocks] in *. rewrite (blocks_ok (b0 iv h mm) p m d (B0 iv h mm (proj1 C)) Hp E).
      cbn [fst snd]. split; [reflexivity|]. exists h, mm. split; [exact El|]. split; [exact C|reflexivity].
    - intros iv l s m (h & mm & _ & (Hv & C1 & _) & _). cbn [ccm_mode md_maxm]. rewrite C1. apply MX. exact Hv.
    - intros b iv l hdr (p & Es & Hp & Hn & (h & mm & -> & C & E) & Lb & Bb) Hh Bh. pose proof C as (Hv & C1 & C2 & C3 & C4 & C5).
      cbn [right_h ccm_ideal i_needs negb orb ccm_mode md_last_header]. unfold ccm_last_header. rewrite C3, Hh. destruct (Z.eqb_spec h (len64 hdr)) as [->|Hne]; [|reflexivity].
      eexists. split; [reflexivity|]. split; [apply FS|]. rewrite (proj1 (proj2 (FS b))). split; [exact Lb|]. split; [exact Bb|].
      destruct (flush_ok b (b0 iv (len64 hdr) mm) p _ Hn Lb Es (B0 _ _ _ Hv) Hp E) as (n & F). rewrite F. cbn [b_m].
      exists mm. split; [reflexivity|]. split; [exact C|]. rewrite app_nil_r. reflexivity.
    - intros iv l hdr n p m d (mm & El & C & E) Hp Hd Bd0. cbn [ccm_mode md_bs md_blocks] in *.
      assert (X : (length (b0 iv (len64 hdr) mm ++ pad16 (pre l ++ hdr)) mod 16 = 0)%nat).
      { rewrite app_length, <- Nat.add_mod_idemp_l, (B0 _ _ _ (proj1 C)) by lia. apply pad16_length. }
      rewrite (blocks_ok _ p m d X Hp E). cbn [fst snd]. split; [reflexivity|]. exists mm. split; [exact El|]. split; [exact C|reflexivity].
    - intros iv l hdr n s m (mm & _ & (Hv & C1 & _) & _). cbn [ccm_mode md_maxm]. rewrite C1. apply MX. exact Hv.
    - intros iv l hdr n s m d (mm & El & C & E) Hmx Bd0. cbn [ccm_mode md_cipher ccm_ideal i_maxm] in *. unfold ccm_cipher. pose proof C as (Hv & C1 & C2 & C3 & C4 & C5).
      rewrite C4. pose proof (ccm_cipher_ok iv n d Hv Hmx) as X.
      pose proof (process_bytes e 16 He false (c_at iv n) d Bd0) as Y. rewrite X in Y.
      destruct (ctr_process e false 16 (c_at iv n) d) as [c out] eqn:Ec. cbn [fst snd] in *. split; [exact X|]. split; [exact Y|].
      exists mm. split; [exact El|]. split; [|exact E]. unfold core. cbn [cc_l cc_msg cc_aad cc_ctr]. unfold ctr_process in Ec. injection Ec as Ec _. rewrite <- Ec. repeat split; auto; try lia; apply Hv.
    - intros b iv l hdr txt (p & Es & Hp & Hn & (mm & -> & C & E) & Lb & Bb) Hh Hm Hmx Bh Bt. pose proof C as (Hv & C1 & C2 & C3 & C4 & C5).
      cbn [right_m ccm_ideal i_needs negb orb ccm_mode md_last_conf]. unfold ccm_last_conf. rewrite C2, Hm. destruct (Z.eqb_spec mm (len64 txt)) as [->|Hne]; [|reflexivity].
      eexists. split; [reflexivity|]. split; [apply FS|]. rewrite (proj1 (proj2 (FS b))). split; [exact Lb|]. split; [exact Bb|]. intros _ _.
      assert (X : (length (b0 iv (len64 hdr) (len64 txt) ++ pad16 (pre (Some (len64 hdr, len64 txt)) ++ hdr)) mod 16 = 0)%nat).
      { rewrite app_length, <- Nat.add_mod_idemp_l, (B0 _ _ _ Hv) by lia. apply pad16_length. }
      destruct (flush_ok b _ p txt Hn Lb Es X Hp E) as (n & F). rewrite F. cbn [b_m ccm_set_cbc cc_cbc cc_ctr]. split; [exact Hv|]. cbn [ccm_set_cbc cc_ctr cc_cbc]. split; [rewrite C4; reflexivity|].
      unfold ccm_mac. rewrite <- app_assoc, (aad_pre hdr (len64 txt)), b0_spec. reflexivity.
    - intros iv l hdr n s m (mm & -> & _). cbn [right_h ccm_ideal i_needs negb orb]. apply Z.eqb_refl.
    - intros b iv hdr txt n (Hv & A2 & A3) _ _ _ _ Hn. cbn [ccm_mode md_last_footer ccm_ideal i_tag i_digest] in *. unfold ccm_last_footer.
      assert (Es : ctr_seek_block 16 (cc_ctr (b_m b)) 0 = mkC (c0 iv) (c0 iv) 0).
      { unfold ctr_seek_block. rewrite A2, Z.add_0_r, Z.mod_small by exact (c0_bound iv Hv). reflexivity. }
      rewrite Es, A3. assert (Lh : length (ccm_mac e t iv hdr txt) = 16%nat) by (rewrite mac_ok; apply mac_length).
      pose proof (tag_block e 16 He false (c0 iv) (c0 iv) _ n (c0_bound iv Hv) Lh ltac:(lia)) as T.
      destruct (ctr_process e false 16 (mkC (c0 iv) (c0 iv) 0) (firstn n (ccm_mac e t iv hdr txt))) as [c tg]. cbn [fst snd] in *.
      split; [|split; [repeat split|split; [reflexivity|]]].
      + rewrite T, counter_0 by exact Hv. unfold ccm_tag. rewrite firstn_firstn. f_equal. lia.
      + unfold CK. cbn [set_m b_m cc_cbc]. exact Lh.
    - intros _ m d Hk Bd0. cbn [ccm_mode md_blocks]. unfold ccm_blocks. rewrite (apb_xor_spec (fun _ => e) 16 ltac:(lia) He2 []) by (auto; lia). cbn [fst]. unfold CK. cbn [ccm_set_cbc cc_cbc].
      apply fold_length; auto.
    - intros _ m d Hk. cbn [ccm_mode md_blocks md_bs]. unfold ccm_blocks. rewrite (apb_xor_spec (fun _ => e) 16 ltac:(lia) He2 []) by (auto; lia). cbn [snd]. apply Nat.mod_upper_bound. lia.
    - intros _ b b2 (W1 & W2 & W3 & W4) E. cbn [ccm_mode md_last_header md_bs] in *. unfold ccm_last_header in E. destruct (_ =? _); [|discriminate E].
      apply (f_equal (fun o => match o with Some x => x | None => b end)) in E; cbv beta iota in E; subst b2. split; [apply FS|]. destruct (FS b) as (_ & F1 & F2).
      unfold wfb. rewrite F1. cbn [ccm_mode md_bs]. repeat split; auto.
    - intros _ b b2 (W1 & W2 & W3 & W4) E. cbn [ccm_mode md_last_conf md_bs] in *. unfold ccm_last_conf in E. destruct (_ =? _); [|discriminate E].
      apply (f_equal (fun o => match o with Some x => x | None => b end)) in E; cbv beta iota in E; subst b2. destruct (FS b) as (_ & F1 & F2).
      unfold wfb. rewrite F1. cbn [ccm_mode md_bs]. repeat split; auto.
    - intros _ b n W. cbn [ccm_mode md_last_footer]. unfold ccm_last_footer. destruct (ctr_process _ _ _ _ _). cbn [fst]. exact W.
    - intros _ m d Hk Bd0. cbn [ccm_mode md_cipher]. unfold ccm_cipher. pose proof (process_bytes e 16 He false (cc_ctr m) d Bd0) as X. pose proof (process_length e 16 false (cc_ctr m) d) as Y.
      destruct (ctr_process e false 16 (cc_ctr m) d). cbn [fst snd] in *. split; [exact Hk|auto].
  Qed.
End Ccm.
