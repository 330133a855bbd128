(** InflateProofs: blocks, the stream, and pieces of it. *)
From Coq Require Import ZArith List Bool Lia Arith.
From Verif Require Import Base BitioModel BitioSpec BitioProofs BitioStream HuffmanModel HuffmanSpec
  HuffmanCode HuffmanProofs WindowModel WindowSpec WindowProofs InflateModel InflateSpec InflateBits InflateHeader InflateBody.
Import ListNotations.
Open Scope nat_scope.

Definition whole (t : list bool) : Prop := length t mod 8 = 0.

Lemma align_app : forall s t, whole t -> align (s ++ t) = align s ++ t.
Proof.
  intros s t H. unfold align, whole in *. rewrite app_length.
  rewrite Nat.add_mod, H, Nat.add_0_r, Nat.mod_mod by lia.
  rewrite skipn_app. replace (length s mod 8 - length s) with 0; [reflexivity|].
  pose proof (Nat.mod_le (length s) 8 ltac:(lia)). lia.
Qed.

Lemma rbits_length : forall r, length (rbits r) = bits_left r.
Proof. intros r. unfold rbits, bits_left. rewrite app_length, lsbs_length, stream_length. reflexivity. Qed.

Lemma rbits_mod : forall r, length (rbits r) mod 8 = r_cnt r mod 8.
Proof. intros r. rewrite rbits_length. unfold bits_left. rewrite Nat.mul_comm, Nat.mod_add by lia. reflexivity. Qed.

Lemma whole_stream : forall l, whole (stream l).
Proof. intros l. unfold whole. rewrite stream_length, Nat.mul_comm. apply Nat.mod_mul. lia. Qed.

Lemma whole_app : forall a b, whole a -> whole b -> whole (a ++ b).
Proof. intros a b A B. unfold whole in *. rewrite app_length, Nat.add_mod, A, B by lia. reflexivity. Qed.

Lemma stream_inj : forall a b, bytes a -> bytes b -> stream a = stream b -> a = b.
Proof.
  induction a as [|x a IH]; intros b HA HB E.
  - apply (f_equal (@length bool)) in E. rewrite !stream_length in E. destruct b; auto. cbn [length] in E. lia.
  - destruct b as [|y b]; [apply (f_equal (@length bool)) in E; rewrite !stream_length in E; cbn [length] in E; lia|].
    cbn [stream flat_map] in E. fold (stream a) in E. fold (stream b) in E.
    apply app_eq_len in E as [E1 E2]; [|rewrite !lsbs_length; auto].
    inversion HA; inversion HB; subst. unfold byte in *.
    apply lsbs_inj in E1; [|lia|lia]. subst. f_equal. auto.
Qed.

(** * Giving back what was read too far *)
Lemma take_bytes_spec : forall k r, rok r -> r_cnt r = 8 * k ->
  let (r', l) := take_bytes k r in
  r_cnt r' = 0 /\ r_rest r' = r_rest r /\ rok r' /\ bytes l /\ stream l ++ stream (r_rest r) = rbits r.
Proof.
  induction k as [|k IH]; intros r HR HC; cbn [take_bytes].
  - split; [lia|]. split; auto. split; auto. split; [constructor|]. unfold rbits. rewrite HC. reflexivity.
  - assert (L8 : 8 <= length (rbits r)) by (rewrite rbits_length; unfold bits_left; lia).
    destruct (get_bits_spec r 8 HR ltac:(lia) L8) as (r1 & G & R1 & B1).
    assert (GC : r_cnt (fst (get_bits r 8)) = 8 * k /\ r_rest (fst (get_bits r 8)) = r_rest r).
    { unfold get_bits, peek_bits, fill_buffer.
      assert (F : fill_loop (r_rest r) (r_buf r) (r_cnt r) 8 = (mkrd (r_buf r) (r_cnt r) (r_rest r), true)).
      { destruct (r_rest r); cbn [fill_loop]; destruct (Nat.ltb_spec (r_cnt r) 8); try lia; reflexivity. }
      rewrite F. cbn [fst skip_bits r_cnt r_rest]. split; [lia|reflexivity]. }
    rewrite G in GC. cbn [fst] in GC. destruct GC as [C1 X1]. rewrite G.
    specialize (IH r1 R1 C1). destruct (take_bytes k r1) as [r' l]. destruct IH as (A & B & C & D & E).
    split; auto. split; [congruence|]. split; auto.
    pose proof (lsbs_val_range (firstn 8 (rbits r))) as V. rewrite firstn_length, Nat.min_l in V by auto.
    split; [constructor; auto; unfold byte; cbn in V; lia|].
    cbn [stream flat_map]. fold (stream l). rewrite <- app_assoc.
    rewrite X1 in E. rewrite E, B1.
    pose proof (lsbs_lsbs_val (firstn 8 (rbits r))) as Q. rewrite firstn_length, Nat.min_l in Q by auto. rewrite Q.
    apply firstn_skipn.
Qed.

Lemma unget_spec : forall r, rok r -> rok22 (unget r) /\ r_cnt (unget r) = 0 /\ rbits (unget r) = align (rbits r).
Proof.
  intros r HR. unfold unget.
  assert (M : r_cnt r mod 8 <= r_cnt r) by (apply Nat.mod_le; lia).
  destruct (skip_bits_spec r (r_cnt r mod 8) HR M) as [R1 B1].
  assert (C1 : r_cnt (skip_bits r (r_cnt r mod 8)) = 8 * (r_cnt (skip_bits r (r_cnt r mod 8)) / 8)).
  { cbn [skip_bits r_cnt]. pose proof (Nat.div_mod (r_cnt r) 8 ltac:(lia)) as E.
    replace (r_cnt r - r_cnt r mod 8) with (r_cnt r / 8 * 8) by lia. rewrite Nat.div_mul by lia. lia. }
  pose proof (take_bytes_spec _ _ R1 C1) as T. cbv zeta.
  destruct (take_bytes _ _) as [r' l]. destruct T as (A & B & C & D & E).
  assert (RB : rbits (mkrd (r_buf r') (r_cnt r') (l ++ r_rest r')) = align (rbits r)).
  { unfold rbits at 1. cbn [r_cnt r_buf r_rest]. rewrite A. cbn [lsbs app]. rewrite stream_app, B, E, B1.
    unfold align. rewrite rbits_mod. reflexivity. }
  split; [|split; auto].
  destruct C as (C1' & C2 & C3). split; [|cbn [r_cnt]; lia]. split; auto. split; auto. cbn [r_rest]. apply bytes_app. auto.
Qed.

(** * Steps of the specification *)
Definition fin (b : bool) (W : nat) (eof : bool) (h : list Z) (s : list bool) (hend : list Z) (send : list bool) : Prop :=
  if eof then hend = h /\ send = align s else inflates b W h s hend send.

Lemma inflates_step : forall b W h s hend send, inflates b W h s hend send <->
  exists e t s1 s2 h2 s3, s = e :: s1 /\ field 2 t s1 s2 /\ block b W t h s2 h2 s3 /\ fin b W e h2 s3 hend send.
Proof.
  intros b W h s hend send. split.
  - intros H. inversion H; subst.
    + exists true, t, s1, s1', hend, s2. split; auto. split; auto. split; auto. split; auto.
    + exists false, t, s1, s1', h2, s2. auto.
  - intros (e & t & s1 & s2 & h2 & s3 & -> & F & B & E). destruct e.
    + destruct E as [-> ->]. eapply inf_last; eauto.
    + eapply inf_more; eauto.
Qed.

Lemma field1 : forall e s s', field 1 e s s' -> s = negb (e =? 0) :: s'.
Proof. intros e s s' [A ->]. cbn in A. destruct e as [|[|e]]; try lia; reflexivity. Qed.

Definition body_accepts (b : bool) (W : nat) (lits dists : list nat) (s : inflator) (h : list Z) (x : list bool)
  (hend : list Z) (send : list bool) : Prop :=
  if f_type s =? 0
  then exists data x1, bytes data /\ length data = f_stored s /\ x = stream data ++ x1
       /\ fin b W (f_eof s) (h ++ data) x1 hend send
  else exists h2 x2, cont b W lits dists (f_next s) (f_literal s) (f_distance s) h x h2 x2
       /\ fin b W (f_eof s) h2 x2 hend send.

Definition base (W : nat) (s : inflator) (h : list Z) : Prop :=
  rok22 (f_rd s) /\ rel W (f_win s) h /\ fixed_ok s /\ f_after s = [].
Definition body_ok (W : nat) (lits dists : list nat) (s : inflator) (h : list Z) : Prop :=
  f_state s = DECODING_BODY /\ f_after s = [] /\
  if f_type s =? 0 then base W s h /\ r_cnt (f_rd s) = 0 else in_body W lits dists s h.

(** * The fixed codes *)
Lemma fixed_lit_complete : complete fixed_lit.
Proof. split; [|reflexivity]. unfold fixed_lit. repeat rewrite Forall_app. repeat split; apply Forall_forall; intros x H; apply repeat_spec in H; lia. Qed.
Lemma fixed_dist_complete : complete fixed_dist.
Proof. split; [|reflexivity]. apply Forall_forall; intros x H; apply repeat_spec in H; lia. Qed.

Lemma fixed_lit_max : max_bits fixed_lit <= 15.
Proof. apply max_of_forall. unfold fixed_lit. repeat rewrite Forall_app. repeat split; apply Forall_forall; intros x H; apply repeat_spec in H; lia. Qed.
Lemma fixed_dist_max : max_bits fixed_dist <= 15.
Proof. apply max_of_forall. apply Forall_forall; intros x H; apply repeat_spec in H; lia. Qed.

Lemma fixed_decoders : forall s, fixed_ok s -> f_type s = 1 ->
  (exists d, literal_decoder s = Some d /\ decoder_of fixed_lit d)
  /\ (exists d, distance_decoder s = Some d /\ decoder_of fixed_dist d).
Proof.
  intros s [F1 F2] T. unfold literal_decoder, distance_decoder. rewrite T, Nat.eqb_refl. split.
  - destruct (f_flit s) as [d|]; [eauto|]. destruct (dec_init_ok fixed_lit fixed_lit_complete) as (d & E & _).
    exists d. split; [exact E|constructor; exact E].
  - destruct (f_fdist s) as [d|]; [eauto|]. destruct (dec_init_ok fixed_dist fixed_dist_complete) as (d & E & _).
    exists d. split; [exact E|constructor; exact E].
Qed.

Lemma stored_inv : forall b W h s h2 x, block b W 0 h s h2 x -> exists data, bytes data
  /\ (Z.of_nat (length data) < 65536)%Z /\ h2 = h ++ data
  /\ align s = lsbs 16 (Z.of_nat (length data)) ++ lsbs 16 (65535 - Z.of_nat (length data)) ++ stream data ++ x.
Proof. intros b W h s h2 x B. inversion B; subst. exists data. repeat split; auto. lia. Qed.

Lemma lengths_app : forall b cl n acc s lens s' t, lengths b cl n acc s lens s' -> lengths b cl n acc (s ++ t) lens (s' ++ t).
Proof.
  intros b cl n acc s lens s' t H. induction H.
  - constructor; auto.
  - eapply len_one; [| |eassumption|exact IHlengths]; auto. apply reads_app. auto.
  - eapply len_copy; [| | |exact IHlengths]; [auto|apply reads_app; eassumption|apply field_app; auto].
  - eapply len_zero3; [| | |exact IHlengths]; [auto|apply reads_app; eassumption|apply field_app; auto].
  - eapply len_zero11; [| | |exact IHlengths]; [auto|apply reads_app; eassumption|apply field_app; auto].
Qed.

Lemma dynamic_app : forall b s lit dist s' t, dynamic b s lit dist s' -> dynamic b (s ++ t) lit dist (s' ++ t).
Proof.
  intros b s lit dist s' t (hlit & hdist & hclen & s1 & s2 & s3 & cl & s4 & lens & H1 & H2 & H3 & H4 & H5 & H6 & H7 & H8 & H9 & H10).
  exists hlit, hdist, hclen, (s1 ++ t), (s2 ++ t), (s3 ++ t), cl, (s4 ++ t), lens.
  split; [apply field_app; auto|]. split; [apply field_app; auto|]. split; [apply field_app; auto|].
  split; auto. split; auto. split; auto. split; [rewrite H7, app_assoc; reflexivity|]. split; auto.
  split; [apply lengths_app; auto|exact H10].
Qed.

(** * DecodeHeader *)
Lemma decode_header_spec : forall W s h flush, 257 <= W -> base W s h ->
  1 <= length (r_rest (f_rd s)) -> (flush = false -> max_header_size <= length (r_rest (f_rd s))) ->
  match decode_header s with
  | Fine s' => exists lits dists, body_ok W lits dists s' h
      /\ length (rbits (f_rd s')) + 3 <= length (rbits (f_rd s))
      /\ (forall t hend send, whole t -> body_accepts false W lits dists s' h (rbits (f_rd s') ++ t) hend send ->
            inflates false W h (rbits (f_rd s) ++ t) hend send)
      /\ (forall t hend send, whole t -> inflates true W h (rbits (f_rd s) ++ t) hend send ->
            body_accepts true W lits dists s' h (rbits (f_rd s') ++ t) hend send)
  | _ => forall t hend send, whole t -> flush = false \/ t = [] -> ~ inflates true W h (rbits (f_rd s) ++ t) hend send
  end.
Proof.
  intros W s h flush HW (R22 & RW & FX & AF) H1 HF. unfold decode_header.
  assert (L8 : 8 <= length (rbits (f_rd s))) by (rewrite rbits_length; unfold bits_left; lia).
  assert (LF : flush = false -> 4728 <= length (rbits (f_rd s))).
  { intros E. specialize (HF E). change max_header_size with 591 in HF. rewrite rbits_length. unfold bits_left. lia. }
  pose proof (need_spec (f_rd s) 3 (proj1 R22) ltac:(lia)) as N. destruct (need (f_rd s) 3) as [r0| | |]; try contradiction; [|lia].
  destruct N as (A0 & B0 & C0 & D0 & E0). cbn [bind].
  destruct (get_spec r0 1 A0 ltac:(lia) ltac:(rewrite B0; lia)) as (r1 & e & G1 & R1 & F1 & C1). rewrite G1. cbn [bind].
  pose proof (field_len _ _ _ _ F1) as L1. rewrite B0 in F1, L1.
  destruct (get_spec r1 2 R1 ltac:(lia) ltac:(lia)) as (r2 & ty & G2 & R2 & F2 & C2). rewrite G2. cbn [bind].
  pose proof (field_len _ _ _ _ F2) as L2.
  assert (CN : r_cnt r2 <= 19) by (destruct R22; lia).
  remember (negb (e =? 0)) as eof eqn:EE.
  assert (FWD : forall t hend send, inflates true W h (rbits (f_rd s) ++ t) hend send ->
    exists h2 x, block true W ty h (rbits r2 ++ t) h2 x /\ fin true W eof h2 x hend send).
  { intros t hend send H. apply inflates_step in H as (e' & t' & s1 & s2 & h2 & s3 & X & Y & B & Z).
    rewrite (field1 _ _ _ (field_app _ _ _ _ t F1)) in X. injection X as X1 X2. subst e' s1.
    destruct (field_det _ _ _ _ _ _ (field_app _ _ _ _ t F2) Y) as [-> ->]. subst eof. eauto. }
  assert (BACK : forall t hend send h2 x, block false W ty h (rbits r2 ++ t) h2 x -> fin false W eof h2 x hend send ->
    inflates false W h (rbits (f_rd s) ++ t) hend send).
  { intros t hend send h2 x B Z. apply inflates_step.
    exists eof, ty, (rbits r1 ++ t), (rbits r2 ++ t), h2, x. split; [subst eof; apply field1; apply field_app; auto|].
    split; [apply field_app; auto|]. auto. }
  destruct ty as [|[|[|ty]]].
  - (* stored *)
    assert (M : r_cnt r2 mod 8 <= r_cnt r2) by (apply Nat.mod_le; lia).
    destruct (skip_bits_spec r2 (r_cnt r2 mod 8) R2 M) as [R3 B3].
    assert (C3 : r_cnt (skip_bits r2 (r_cnt r2 mod 8)) <= 19) by (cbn [skip_bits r_cnt]; lia).
    assert (A3 : rbits (skip_bits r2 (r_cnt r2 mod 8)) = align (rbits r2)) by (rewrite B3; unfold align; rewrite rbits_mod; reflexivity).
    remember (skip_bits r2 (r_cnt r2 mod 8)) as r3 eqn:E3. clear E3.
    assert (M3 : length (rbits r3) mod 8 = 0 /\ length (rbits r3) <= length (rbits r2)).
    { rewrite A3. unfold align. rewrite skipn_length.
      pose proof (Nat.div_mod (length (rbits r2)) 8 ltac:(lia)) as DM. split; [|lia].
      replace (length (rbits r2) - length (rbits r2) mod 8) with (length (rbits r2) / 8 * 8) by lia. apply Nat.mod_mul. lia. }
    pose proof (need_spec r3 32 R3 ltac:(lia)) as N3. destruct (need r3 32) as [r4| | |]; try contradiction; cbn [bind].
    2:{ intros t hend send Ht [E|E] H; destruct (FWD _ _ _ H) as (h2 & x & B & _); destruct (stored_inv _ _ _ _ _ _ B) as (data & BD & LD & -> & H3).
        - specialize (LF E). assert (length (rbits r2) <= length (rbits r3) + 7); [|lia].
          rewrite A3. unfold align. rewrite skipn_length. pose proof (Nat.mod_upper_bound (length (rbits r2)) 8 ltac:(lia)). lia.
        - rewrite align_app, <- A3, E, app_nil_r in H3 by auto. apply (f_equal (@length bool)) in H3. rewrite !app_length, !lsbs_length in H3. lia. }
    destruct N3 as (A4 & B4 & C4 & D4 & E4).
    destruct (getz_spec r4 16 A4 ltac:(lia) ltac:(rewrite B4; lia)) as (r5 & len & G5 & R5 & V5 & B5 & C5). rewrite G5. cbn [bind].
    assert (L5 : length (rbits r4) = 16 + length (rbits r5)) by (rewrite B5, app_length, lsbs_length; reflexivity).
    rewrite B4 in L5, B5.
    destruct (getz_spec r5 16 R5 ltac:(lia) ltac:(lia)) as (r6 & nlen & G6 & R6 & V6 & B6 & C6). rewrite G6. cbn [bind].
    assert (L6 : length (rbits r5) = 16 + length (rbits r6)) by (rewrite B6, app_length, lsbs_length; reflexivity).
    assert (Z6 : r_cnt r6 = 0).
    { assert (r_cnt r6 <= 7) by lia. pose proof (rbits_mod r6) as Q.
      assert (length (rbits r6) mod 8 = 0).
      { destruct M3 as [M3 _]. replace (length (rbits r3)) with (length (rbits r6) + 4 * 8) in M3 by lia. rewrite Nat.mod_add in M3 by lia. exact M3. }
      rewrite H0, Nat.mod_small in Q by lia. auto. }
    assert (AL : forall t, whole t -> align (rbits r2 ++ t) = lsbs 16 len ++ lsbs 16 nlen ++ rbits r6 ++ t).
    { intros t Ht. rewrite align_app, <- A3, B5, B6 by auto. rewrite <- !app_assoc. reflexivity. }
    change (2 ^ Z.of_nat 16)%Z with 65536%Z in V5, V6.
    destruct (Z.eqb_spec nlen (65535 - len)) as [EN|NN].
    + exists [], []. split.
      { split; [reflexivity|]. split; [exact AF|]. cbn [f_type Nat.eqb]. split; [|exact Z6].
        split; [split; [exact R6|cbn [f_rd]; lia]|]. split; [exact RW|]. split; [exact FX|exact AF]. }
      cbn [f_rd]. split; [lia|]. split.
      * intros t hend send Ht (data & x1 & BD & LD & X & Z). cbn [f_stored f_eof] in LD, Z.
        eapply BACK; [|exact Z]. eapply blk_stored with (len := len) (s1 := rbits r6 ++ t); auto; try lia.
        rewrite AL by auto. rewrite EN. reflexivity.
      * intros t hend send Ht H. destruct (FWD _ _ _ H) as (h2 & x & B & Z). destruct (stored_inv _ _ _ _ _ _ B) as (data & BD & LD & -> & H3).
        rewrite AL in H3 by auto.
        apply app_eq_len in H3 as [Q1 Q2]; [|rewrite !lsbs_length; auto].
        apply app_eq_len in Q2 as [_ Q2]; [|rewrite !lsbs_length; auto].
        apply lsbs_inj in Q1; [|change (2 ^ Z.of_nat 16)%Z with 65536%Z; lia|change (2 ^ Z.of_nat 16)%Z with 65536%Z; lia].
        exists data, x. split; auto. split; [cbn [f_stored]; lia|]. split; auto.
    + intros t hend send Ht _ H. destruct (FWD _ _ _ H) as (h2 & x & B & Z). destruct (stored_inv _ _ _ _ _ _ B) as (data & BD & LD & -> & H3).
      rewrite AL in H3 by auto.
      apply app_eq_len in H3 as [Q1 Q2]; [|rewrite !lsbs_length; auto].
      apply app_eq_len in Q2 as [Q2 _]; [|rewrite !lsbs_length; auto].
      apply lsbs_inj in Q1; [|change (2 ^ Z.of_nat 16)%Z with 65536%Z; lia|change (2 ^ Z.of_nat 16)%Z with 65536%Z; lia].
      apply lsbs_inj in Q2; [|change (2 ^ Z.of_nat 16)%Z with 65536%Z; lia|change (2 ^ Z.of_nat 16)%Z with 65536%Z; lia]. lia.
  - (* fixed *)
    match goal with |- exists _ _, body_ok _ _ _ ?x _ /\ _ => remember x as s' eqn:ES end.
    exists fixed_lit, fixed_dist.
    assert (T1 : f_type s' = 1) by (subst; reflexivity).
    assert (FX' : fixed_ok s') by (subst; exact FX).
    destruct (fixed_decoders s' FX' T1) as [D1 D2].
    assert (RD : f_rd s' = r2) by (subst; reflexivity). rewrite RD.
    split.
    { split; [subst; reflexivity|]. split; [subst; exact AF|]. rewrite T1. cbn [Nat.eqb]. constructor; auto.
      - rewrite RD. split; [auto|lia].
      - subst; exact RW.
      - left. apply fixed_lit_complete.
      - apply fixed_lit_max.
      - left. destruct D2 as (d & D2 & D3). exists d. split; auto. split; auto. split; [left; apply fixed_dist_complete|apply fixed_dist_max].
      - subst; exact I. }
    split; [lia|]. unfold body_accepts. rewrite T1. cbn [Nat.eqb].
    assert (NX : f_next s' = LITERAL) by (subst; reflexivity). assert (EO : f_eof s' = eof) by (subst; reflexivity). rewrite NX, EO.
    split.
    + intros t hend send Ht (h2 & x2 & (_ & _ & Q) & Z). eapply BACK; [|exact Z]. constructor. exact Q.
    + intros t hend send Ht H. destruct (FWD _ _ _ H) as (h2 & x & B & Z). inversion B; subst.
      exists h2, x. split; auto. split; [left; apply fixed_lit_complete|]. split; [left; left; apply fixed_dist_complete|assumption].
  - (* dynamic *)
    pose proof (dynamic_spec r2 (f_dist s) ltac:(split; [auto|lia])) as DS.
    destruct (dynamic_header r2 (f_dist s)) as [[[r3 lit] dist]| | |]; cbn [bind].
    2,3,4: intros t hend send Ht TT H; destruct (FWD _ _ _ H) as (h2 & x & B & Z); inversion B; subst;
      (refine (DS t _ _ _ _ _); [|eassumption]); destruct TT as [TT| ->]; [right; specialize (LF TT); lia|auto].
    destruct DS as (R3 & L3 & lits & dists & DF & DT & UL & DL & ML & DD).
    match goal with |- exists _ _, body_ok _ _ _ ?x _ /\ _ => remember x as s' eqn:ES end.
    exists lits, dists.
    assert (T1 : f_type s' = 2) by (subst; reflexivity).
    assert (RD : f_rd s' = r3) by (subst; reflexivity). rewrite RD.
    split.
    { split; [subst; reflexivity|]. split; [subst; exact AF|]. rewrite T1. cbn [Nat.eqb]. constructor; auto.
      - rewrite RD. auto.
      - subst; exact RW.
      - subst; exact FX.
      - exists lit. split; auto. unfold literal_decoder. rewrite T1. subst; reflexivity.
      - destruct DD as [(dd & X1 & X2 & X3 & X4)|[X1 X2]]; [left|right; split; auto; split; auto; subst; reflexivity].
        exists dd. split; auto. unfold distance_decoder. rewrite T1. subst; reflexivity.
      - rewrite T1. discriminate.
      - subst; exact I. }
    split; [lia|]. unfold body_accepts. rewrite T1. cbn [Nat.eqb].
    assert (NX : f_next s' = LITERAL) by (subst; reflexivity). assert (EO : f_eof s' = eof) by (subst; reflexivity). rewrite NX, EO.
    split.
    + intros t hend send Ht (h2 & x2 & (_ & _ & Q) & Z). eapply BACK; [|exact Z]. econstructor; [|exact Q].
      apply dynamic_app; auto.
    + intros t hend send Ht H. destruct (FWD _ _ _ H) as (h2 & x & B & Z). inversion B; subst.
      destruct (DT _ _ _ _ ltac:(eassumption)) as (-> & -> & -> & U1 & U2).
      exists h2, x. split; auto. split; auto.
  - intros t hend send Ht _ H. destruct (FWD _ _ _ H) as (h2 & x & B & Z). inversion B.
Qed.
