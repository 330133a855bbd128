(** Helpers for the block cipher modes, and GCM. *)
From Coq Require Import ZArith List Bool Arith Lia.
From Verif Require Import Base Blocks HashModel ModesModel MacModel MacSpec MacProofs Poly1305Proofs AeadModel AeadSpec AeadProofs.
Import ListNotations.
Local Open Scope Z_scope.

Lemma map_nth_seq : forall (l : list Z) n, (n <= length l)%nat -> map (fun i => nth i l 0) (seq 0 n) = firstn n l.
Proof.
  intros l n H. apply nth_ext_eq with (d := 0).
  - rewrite map_length, seq_length, firstn_length_le by lia. reflexivity.
  - intros i Hi. rewrite map_length, seq_length in Hi. rewrite nth_firstn_lt by lia.
    rewrite (nth_indep _ 0 ((fun i => nth i l 0) 0%nat)) by (rewrite map_length, seq_length; lia).
    rewrite (map_nth (fun i => nth i l 0)). rewrite seq_nth by lia. reflexivity.
Qed.
Lemma pad16_split : forall p r, (length p mod 16 = 0)%nat -> (length r < 16)%nat ->
  pad16 (p ++ r) = if Nat.ltb 0 (length r) then p ++ r ++ repeat 0 (16 - length r) else p.
Proof.
  intros p r Hp Hr. unfold pad16. rewrite app_length, <- Nat.add_mod_idemp_l, Hp by lia. cbn [Nat.add]. rewrite (Nat.mod_small (length r)) by lia.
  destruct (Nat.ltb_spec 0 (length r)).
  - rewrite Nat.mod_small by lia. rewrite app_assoc. reflexivity.
  - assert (E : length r = 0%nat) by lia. destruct r; [|discriminate E]. cbn [length]. rewrite Nat.sub_0_r, Nat.mod_same by lia. cbn [repeat]. rewrite !app_nil_r. reflexivity.
Qed.
Lemma pad16_length : forall l, (length (pad16 l) mod 16 = 0)%nat.
Proof.
  intros l. unfold pad16. rewrite app_length, repeat_length. pose proof (Nat.mod_upper_bound (length l) 16 ltac:(lia)) as H.
  pose proof (Nat.div_mod (length l) 16 ltac:(lia)) as D. destruct (Nat.eq_dec (length l mod 16) 0) as [E|E].
  - rewrite E, Nat.sub_0_r, Nat.mod_same by lia. rewrite Nat.add_0_r. exact E.
  - rewrite (Nat.mod_small (16 - _)) by lia. replace (length l + (16 - length l mod 16))%nat with ((length l / 16 + 1) * 16)%nat by lia. apply Nat.mod_mul. lia.
Qed.
Lemma pad16_bytes : forall l, bytes l -> bytes (pad16 l).
Proof. intros. unfold pad16. rewrite bytes_app. split; auto using bytes_repeat0. Qed.

Lemma iter_inc32 : forall j v, 0 <= v -> Nat.iter j inc32 v = ctr_after true 16 v j.
Proof.
  induction j as [|j IH]; intros v Hv.
  - cbn [Nat.iter nat_rect]. unfold ctr_after. rewrite Z.add_0_r, Z.mod_mod by lia. pose proof (Z.div_mod v (2 ^ 32) ltac:(lia)). lia.
  - change (Nat.iter (S j) inc32 v) with (inc32 (Nat.iter j inc32 v)). rewrite IH by auto. unfold ctr_after, inc32.
    set (a := v / 2 ^ 32). set (r := v mod 2 ^ 32).
    assert (E : (a * 2 ^ 32 + (r + Z.of_nat j) mod 2 ^ 32) / 2 ^ 32 = a).
    { rewrite Z.add_comm, Z.div_add by lia. rewrite Z.div_small by (apply Z.mod_pos_bound; lia). lia. }
    rewrite E. f_equal. replace (a * 2 ^ 32 + (r + Z.of_nat j) mod 2 ^ 32 + 1) with ((r + Z.of_nat j) mod 2 ^ 32 + 1 + a * 2 ^ 32) by ring.
    rewrite Z.mod_add by lia. rewrite Zplus_mod_idemp_l. f_equal. lia.
Qed.
Lemma ctr_after_0 : forall g bs v, 0 <= v < 256 ^ Z.of_nat bs -> ctr_after g bs v 0 = v.
Proof.
  intros g bs v H. unfold ctr_after. rewrite !Z.add_0_r. destruct g.
  - rewrite Z.mod_mod by lia. pose proof (Z.div_mod v (2 ^ 32) ltac:(lia)). lia.
  - apply Z.mod_small. lia.
Qed.

Section Ctr.
  Variable e : list Z -> list Z.
  Variable bs : nat.
  Hypothesis He : forall b, length b = bs -> length (e b) = bs /\ bytes (e b).
  Lemma nth_bytes : forall l i, bytes l -> byte (nth i l 0).
  Proof.
    intros l i H. destruct (Nat.lt_ge_cases i (length l)) as [L|L].
    - apply (proj1 (Forall_forall byte l) H). apply nth_In. exact L.
    - rewrite nth_overflow by exact L. unfold byte. lia.
  Qed.
  Lemma keybytes : forall g s p, byte (ctr_keybyte e g bs s p).
  Proof. intros. unfold ctr_keybyte. apply nth_bytes, He, be_bytes_length. Qed.
  Lemma keys_bytes : forall g s l, bytes (map (ctr_keybyte e g bs s) l).
  Proof. intros g s l. apply Forall_forall. intros x Hx. apply in_map_iff in Hx. destruct Hx as (y & <- & _). apply keybytes. Qed.
  Lemma process_length : forall g s d, length (snd (ctr_process e g bs s d)) = length d.
  Proof. intros. cbn [ctr_process snd]. rewrite xorl_length, map_length, seq_length. lia. Qed.
  Lemma process_bytes : forall g s d, bytes d -> bytes (snd (ctr_process e g bs s d)).
  Proof. intros. cbn [ctr_process snd]. apply xorl_bytes; auto using keys_bytes. Qed.
  (** The first block of keystream, used for the tag. *)
  Lemma tag_block : forall g i st h n, 0 <= st < 256 ^ Z.of_nat bs -> length h = bs -> (n <= bs)%nat ->
    snd (ctr_process e g bs (mkC i st 0) (firstn n h)) = firstn n (xorl h (e (be_bytes bs st))).
  Proof.
    intros g i st h n Hs Hh Hn. cbn [ctr_process snd c_pos]. rewrite firstn_length_le by lia. rewrite xorl_firstn. f_equal.
    rewrite <- map_nth_seq by (rewrite (proj1 (He _ (be_bytes_length bs st))); lia). apply map_ext_in. intros p Hp. apply in_seq in Hp.
    unfold ctr_keybyte. cbn [c_start]. rewrite Nat.mod_small, Nat.div_small by lia. rewrite ctr_after_0 by exact Hs. reflexivity.
  Qed.
End Ctr.

Section Gcm.
  Variable e gmul : list Z -> list Z.
  Hypothesis He : forall b, length b = 16%nat -> length (e b) = 16%nat /\ bytes (e b).
  Hypothesis Hg : forall b, length b = 16%nat -> length (gmul b) = 16%nat /\ bytes (gmul b).
  Notation md := (gcm_mode e gmul).
  Notation id := (gcm_ideal e gmul add128).

  Definition gstep (y b : list Z) := gmul (xorl y b).
  Lemma gfold_ok : forall l y, length y = 16%nat -> bytes y -> Forall (fun b => length b = 16%nat) l ->
    length (fold_left gstep l y) = 16%nat /\ bytes (fold_left gstep l y).
  Proof.
    induction l as [|b l IH]; intros y Hy By Hl; [auto|]. inversion Hl; subst. cbn [fold_left]. destruct (Hg (xorl y b)) as [G1 G2]; [rewrite xorl_length; lia|]. apply IH; auto.
  Qed.
  Lemma ghash_ok : forall x, length (ghash gmul x) = 16%nat /\ bytes (ghash gmul x).
  Proof. intros x. apply gfold_ok; [apply repeat_length|apply bytes_repeat0|apply blocks_forall; lia]. Qed.
  Lemma ghash_app : forall a b, (length a mod 16 = 0)%nat -> ghash gmul (a ++ b) = ghash_blocks gmul (ghash gmul a) b.
  Proof. intros. unfold ghash, ghash_blocks. rewrite blocks_app_mult by (auto; lia). rewrite fold_left_app. reflexivity. Qed.
  Lemma j0_ok : forall iv, bytes iv -> length (gcm_j0 gmul iv) = 16%nat /\ bytes (gcm_j0 gmul iv).
  Proof.
    intros iv H. unfold gcm_j0. destruct (Nat.eqb_spec (length iv) 12) as [E|E]; [|apply ghash_ok].
    rewrite app_length, E. split; [reflexivity|]. rewrite bytes_app. split; [exact H|]. repeat constructor; unfold byte; lia.
  Qed.

  Definition g_at (iv : list Z) (n : nat) : ctrs := mkC (be_val (gcm_j0 gmul iv)) (add128 (be_val (gcm_j0 gmul iv))) n.
  Definition GK (m : gcm) : Prop := True.
  Definition GH (iv : list Z) (l : option (Z * Z)) (s : list Z) (m : gcm) : Prop := bytes iv /\ g_hash m = ghash gmul s /\ g_ctr m = g_at iv 0.
  Definition GB (iv : list Z) (l : option (Z * Z)) (hdr : list Z) (n : nat) (s : list Z) (m : gcm) : Prop :=
    bytes iv /\ g_hash m = ghash gmul (pad16 hdr ++ s) /\ g_ctr m = g_at iv n.
  Definition GC (iv hdr txt : list Z) (m : gcm) : Prop :=
    bytes iv /\ g_hash m = ghash gmul (pad16 hdr ++ pad16 txt ++ be_bytes 8 (8 * len64 hdr) ++ be_bytes 8 (8 * len64 txt)) /\ c_iv (g_ctr m) = be_val (gcm_j0 gmul iv).

  Lemma j0_resync : forall b iv, bytes iv -> (1 <= length iv)%nat -> Z.of_nat (length iv) <= 2 ^ 32 - 1 ->
    exists buf, gcm_resync gmul b iv = mkB (b_state b) buf (b_num b) (b_hdr b) (b_msg b) (b_ftr b) (mkG (repeat 0 16) (g_at iv 0)) /\
      (length (b_buf b) = 16%nat -> length buf = 16%nat) /\ (bytes (b_buf b) -> bytes buf).
  Proof.
    intros b iv Hiv H1 H2. unfold gcm_resync.
    assert (C : forall h, h = gcm_j0 gmul iv -> ctr_seek_block 16 (ctr_set h) 1 = g_at iv 0).
    { intros h ->. reflexivity. }
    destruct (Nat.eqb_spec (length iv) 12) as [E|E].
    - exists (b_buf b). split; [|auto]. rewrite C; [reflexivity|]. unfold gcm_j0. rewrite E. reflexivity.
    - assert (J : gcm_j0 gmul iv = ghash_blocks gmul (ghash gmul (pad16 iv)) (put64 0 ++ put64 (w64 (Z.of_nat (length iv) * 8)))).
      { unfold gcm_j0. destruct (Nat.eqb_spec (length iv) 12); [contradiction|]. rewrite <- ghash_app by apply pad16_length.
        unfold put64, w64, len64. rewrite Z.mod_small by lia. do 4 f_equal. lia. }
      set (r := (length iv mod 16)%nat). assert (Hr : (r < 16)%nat) by (apply Nat.mod_upper_bound; lia).
      set (p := firstn (length iv - r) iv). set (t := skipn (length iv - r) iv).
      assert (Eiv : iv = p ++ t) by (symmetry; apply firstn_skipn).
      assert (Lr : (r <= length iv)%nat) by (apply Nat.mod_le; lia).
      assert (Lt : length t = r) by (unfold t; rewrite skipn_length; lia).
      assert (Lp : (length p mod 16 = 0)%nat).
      { unfold p. rewrite firstn_length_le by lia. pose proof (Nat.div_mod (length iv) 16 ltac:(lia)) as D. fold r in D.
        replace (length iv - r)%nat with (length iv / 16 * 16)%nat by lia. apply Nat.mod_mul. lia. }
      assert (X : (if Nat.leb 16 (length iv) then (ghash_blocks gmul (repeat 0 16) iv, r) else (repeat 0 16, length iv)) = (ghash gmul p, r)).
      { destruct (Nat.leb_spec 16 (length iv)) as [L|L].
        - f_equal. unfold ghash_blocks, ghash, p, r. rewrite blocks_trunc by lia. reflexivity.
        - assert (r = length iv) by (apply Nat.mod_small; lia). f_equal; [|auto]. unfold p. rewrite H, Nat.sub_diag. reflexivity. }
      rewrite X. fold t.
      assert (P : ghash gmul (pad16 iv) = if Nat.ltb 0 r then ghash_blocks gmul (ghash gmul p) (t ++ repeat 0 (16 - r)) else ghash gmul p).
      { rewrite Eiv at 1. rewrite pad16_split by (auto; lia). rewrite Lt. destruct (Nat.ltb 0 r); [|reflexivity]. apply ghash_app. exact Lp. }
      destruct (Nat.ltb 0 r).
      + exists (put64 0 ++ put64 (w64 (Z.of_nat (length iv) * 8))). rewrite C by (rewrite J, P; reflexivity). split; [reflexivity|].
        split; intros _; [reflexivity|]. rewrite bytes_app. split; apply be_bytes_bytes.
      + exists (put64 0 ++ put64 (w64 (Z.of_nat (length iv) * 8))). rewrite C by (rewrite J, P; reflexivity). split; [reflexivity|].
        split; intros _; [reflexivity|]. rewrite bytes_app. split; apply be_bytes_bytes.
  Qed.

  Lemma stream_ok : forall iv p n, bytes iv -> ctr_keybyte e true 16 (g_at iv n) p = gcm_keystream e gmul add128 iv p.
  Proof.
    intros iv p n H. unfold ctr_keybyte, gcm_keystream, gcm_counter. cbn [g_at c_start]. rewrite iter_inc32; [reflexivity|].
    unfold add128. apply Z.mod_pos_bound. lia.
  Qed.
  Lemma gcm_cipher_ok : forall iv n d, bytes iv -> snd (ctr_process e true 16 (g_at iv n) d) = i_crypt id iv n d.
  Proof.
    intros iv n d H. cbn [ctr_process snd]. unfold i_crypt. f_equal. cbn [g_at c_pos]. apply map_ext. intros p. rewrite stream_ok by auto. reflexivity.
  Qed.

  Lemma blocks_gen : forall (x : list Z) p (m : gcm) d, (length x mod 16 = 0)%nat -> (length p mod 16 = 0)%nat -> g_hash m = ghash gmul (x ++ p) ->
    ghash_blocks gmul (g_hash m) d = ghash gmul (x ++ p ++ firstn (length d - length d mod 16) d).
  Proof.
    intros x p m d Hx Hp E. rewrite E, app_assoc, (ghash_app (x ++ p)).
    - unfold ghash_blocks. rewrite blocks_trunc by lia. reflexivity.
    - rewrite app_length, <- Nat.add_mod_idemp_l, Hx by lia. exact Hp.
  Qed.
  Lemma gcm_header_ok : forall (b : base gcm) x p (s : list Z), (b_num b < 16)%nat -> length (b_buf b) = 16%nat -> bytes (b_buf b) ->
    s = p ++ firstn (b_num b) (b_buf b) -> (length x mod 16 = 0)%nat -> (length p mod 16 = 0)%nat -> g_hash (b_m b) = ghash gmul (x ++ p) ->
    exists b2, gcm_last_header gmul b = Some b2 /\ same_base b b2 /\ length (b_buf b2) = 16%nat /\ bytes (b_buf b2) /\
      g_hash (b_m b2) = ghash gmul (x ++ pad16 s) /\ g_ctr (b_m b2) = g_ctr (b_m b).
  Proof.
    intros b x p s Hn Hl Hb Es Hx Hp E. assert (Lf : length (firstn (b_num b) (b_buf b)) = b_num b) by (apply firstn_length_le; lia).
    assert (P : pad16 s = if Nat.ltb 0 (b_num b) then p ++ firstn (b_num b) (b_buf b) ++ repeat 0 (16 - b_num b) else p).
    { rewrite Es, pad16_split by (auto; lia). rewrite Lf. reflexivity. }
    unfold gcm_last_header. destruct (Nat.ltb_spec 0 (b_num b)).
    - eexists. split; [reflexivity|]. split; [repeat split|]. cbn [set_m set_buf b_buf b_m gcm_blocks fst g_hash g_ctr].
      split; [rewrite app_length, Lf, repeat_length; lia|]. split; [rewrite bytes_app; auto using bytes_firstn, bytes_repeat0|]. split; [|reflexivity].
      rewrite P, E, app_assoc, (ghash_app (x ++ p)); [reflexivity|]. rewrite app_length, <- Nat.add_mod_idemp_l, Hx by lia. exact Hp.
    - exists b. split; [reflexivity|]. split; [repeat split|]. rewrite P. auto.
  Qed.

  Theorem gcm_laws : laws md id 16 GK (fun _ => []) GH GB GC.
  Proof.
    assert (W : forall l : list Z, (length l mod 16 = 0)%nat -> length l = length l) by reflexivity. clear W.
    assert (IVB : forall n, i_iv_ok id n = true -> (1 <= n)%nat /\ Z.of_nat n <= 2 ^ 32 - 1).
    { intros n H. cbn [gcm_ideal i_iv_ok] in H. apply andb_prop in H. destruct H as [H1 H2]. apply Nat.leb_le in H1. apply Z.leb_le in H2. auto. }
    constructor.
    - cbn. lia.
    - right. reflexivity.
    - reflexivity.
    - reflexivity.
    - reflexivity.
    - reflexivity.
    - cbn [gcm_ideal i_maxh]. lia.
    - intros. cbn [gcm_ideal i_maxm]. lia.
    - intros. cbn [gcm_ideal i_maxm]. lia.
    - intros b iv _ Hl Hb Hn Hiv Biv. destruct (IVB _ Hiv) as [I1 I2]. destruct (j0_resync b iv Biv I1 I2) as (buf & E & Lb & Bb).
      cbn [gcm_mode md_resync]. rewrite E. split; [repeat split|]. split; [reflexivity|]. split.
      + intros _. unfold wfb. cbn [b_num b_buf b_m gcm_mode md_bs]. rewrite Hn. repeat split; [lia|auto|auto; exact (Bb Hb)].
      + intros _. exists []. cbn [b_num b_buf b_m gcm_mode md_bs]. rewrite Hn. cbn [firstn app length]. repeat split; auto; lia.
    - intros b iv h m _ Hl Hb Hn Hiv Biv _ _ _. destruct (IVB _ Hiv) as [I1 I2]. destruct (j0_resync b iv Biv I1 I2) as (buf & E & Lb & Bb).
      cbn [gcm_mode md_resync md_specify]. rewrite E. cbn zeta. cbn [set_state b_state b_hdr b_msg b_ftr]. do 4 (split; [reflexivity|]). split.
      + intros _. unfold wfb. cbn [set_state b_num b_buf b_m gcm_mode md_bs]. rewrite Hn. repeat split; [lia|auto|exact (Bb Hb)].
      + exists []. cbn [set_state b_num b_buf b_m gcm_mode md_bs]. rewrite Hn. cbn [firstn app length]. repeat split; auto; lia.
    - intros iv l p m d (A1 & A2 & A3) Hp Hd Bd0. cbn [gcm_mode md_bs md_blocks gcm_blocks fst snd]. split; [reflexivity|]. split; [exact A1|]. cbn [g_hash g_ctr].
      split; [|exact A3]. exact (blocks_gen [] p m d eq_refl Hp A2).
    - reflexivity.
    - intros b iv l hdr (p & Es & Hp & Hn & (A1 & A2 & A3) & Lb & Bb) _ Bh. cbn [right_h gcm_ideal i_needs negb orb]. cbn [app] in Es.
      destruct (gcm_header_ok b [] p hdr Hn Lb Bb Es eq_refl Hp A2) as (b2 & E1 & E2 & E3 & E4 & E5 & E6).
      exists b2. split; [exact E1|]. split; [exact E2|]. split; [exact E3|]. split; [exact E4|]. split; [exact A1|].
      rewrite app_nil_r. split; [exact E5|]. rewrite E6. exact A3.
    - intros iv l hdr n p m d (A1 & A2 & A3) Hp Hd Bd0. cbn [gcm_mode md_bs md_blocks gcm_blocks fst snd]. split; [reflexivity|]. split; [exact A1|]. cbn [g_hash g_ctr].
      split; [|exact A3]. exact (blocks_gen (pad16 hdr) p m d (pad16_length hdr) Hp A2).
    - reflexivity.
    - intros iv l hdr n s m d (A1 & A2 & A3) _ Bd0. cbn [gcm_mode md_cipher]. unfold gcm_cipher. rewrite A3. pose proof (gcm_cipher_ok iv n d A1) as X.
      pose proof (process_bytes e 16 He true (g_at iv n) d Bd0) as Y. rewrite X in Y.
      destruct (ctr_process e true 16 (g_at iv n) d) as [c out] eqn:E. cbn [fst snd] in *. split; [exact X|]. split; [exact Y|].
      split; [exact A1|]. cbn [g_hash g_ctr]. split; [exact A2|]. unfold ctr_process in E. injection E as E _. rewrite <- E. reflexivity.
    - intros b iv l hdr txt (p & Es & Hp & Hn & (A1 & A2 & A3) & Lb & Bb) Hh Hm Hmx Bh Bt. cbn [right_m right_h gcm_ideal i_needs negb orb i_maxh i_maxm] in *.
      destruct (gcm_header_ok b (pad16 hdr) p txt Hn Lb Bb Es (pad16_length hdr) Hp A2) as (b2 & E1 & (S1 & S2 & S3 & S4) & E3 & E4 & E5 & E6).
      cbn [gcm_mode md_last_conf]. unfold gcm_last_conf. rewrite E1. eexists. split; [reflexivity|]. split; [repeat split; auto|].
      cbn [set_m set_buf b_buf b_m gcm_blocks fst]. split; [reflexivity|]. split; [rewrite bytes_app; split; apply be_bytes_bytes|].
      intros _ Hbd. split; [exact A1|]. cbn [g_hash g_ctr]. rewrite E6, A3. split; [|reflexivity]. rewrite E5, S2, S3, Hh, Hm. unfold w64, put64, len64 in *.
      rewrite !Z.mod_small by lia. rewrite <- ghash_app by (rewrite app_length, <- Nat.add_mod_idemp_l, !pad16_length by lia; apply pad16_length).
      rewrite <- !app_assoc. do 5 f_equal; try lia.
    - reflexivity.
    - intros b iv hdr txt n (A1 & A2 & A3) _ _ _ _ Hn. cbn [gcm_mode md_last_footer gcm_ideal i_tag i_digest] in *. unfold gcm_last_footer.
      destruct (j0_ok iv A1) as [J1 J2]. pose proof (be_val_bounds _ J2) as J3. rewrite J1 in J3.
      assert (Es : ctr_seek_block 16 (g_ctr (b_m b)) 0 = mkC (be_val (gcm_j0 gmul iv)) (be_val (gcm_j0 gmul iv)) 0).
      { unfold ctr_seek_block. rewrite A3, Z.add_0_r, Z.mod_small by exact J3. reflexivity. }
      rewrite Es, A2. set (h := ghash gmul _). assert (Lh : length h = 16%nat) by apply ghash_ok.
      pose proof (tag_block e 16 He true (be_val (gcm_j0 gmul iv)) (be_val (gcm_j0 gmul iv)) h n J3 Lh Hn) as T.
      destruct (ctr_process e true 16 (mkC (be_val (gcm_j0 gmul iv)) (be_val (gcm_j0 gmul iv)) 0) (firstn n h)) as [c t]. cbn [fst snd] in *.
      split; [|split; [repeat split|split; [reflexivity|exact I]]]. rewrite T. unfold gcm_tag. fold h. do 3 f_equal. rewrite <- J1. apply be_bytes_val. exact J2.
    - intros _ m d _ _. exact I.
    - intros _ m d _. cbn [gcm_mode md_blocks gcm_blocks snd md_bs]. apply Nat.mod_upper_bound. lia.
    - intros _ b b2 (W1 & W2 & W3 & W4) E. cbn [gcm_mode md_last_header md_bs] in *. unfold gcm_last_header in E.
      destruct (Nat.ltb 0 (b_num b)); apply (f_equal (fun o => match o with Some x => x | None => b end)) in E; cbv beta iota in E; subst b2; (split; [repeat split|]); unfold wfb; cbn [set_m set_buf b_num b_buf b_m gcm_mode md_bs]; repeat split; auto; try lia.
      + rewrite app_length, firstn_length_le, repeat_length by lia. lia.
      + apply bytes_app. split; [apply bytes_firstn; exact W3|apply bytes_repeat0].
    - intros _ b b2 (W1 & W2 & W3 & W4) E. cbn [gcm_mode md_last_conf md_bs] in *. unfold gcm_last_conf in E. destruct (gcm_last_header gmul b) as [b1|] eqn:E1; [|discriminate E].
      apply (f_equal (fun o => match o with Some x => x | None => b end)) in E; cbv beta iota in E; subst b2. unfold wfb. cbn [set_m set_buf b_num b_buf b_m gcm_mode md_bs]. split; [|split; [reflexivity|split; [apply bytes_app; split; apply be_bytes_bytes|exact I]]].
      unfold gcm_last_header in E1. destruct (Nat.ltb 0 (b_num b)); apply (f_equal (fun o => match o with Some x => x | None => b end)) in E1; cbv beta iota in E1; subst b1; cbn [set_m set_buf b_num]; lia.
    - intros _ b n W. cbn [gcm_mode md_last_footer]. unfold gcm_last_footer. destruct (ctr_process _ _ _ _ _). cbn [fst]. exact W.
    - intros _ m d _ Bd0. cbn [gcm_mode md_cipher]. unfold gcm_cipher. pose proof (process_bytes e 16 He true (g_ctr m) d Bd0) as X. pose proof (process_length e 16 true (g_ctr m) d) as Y.
      destruct (ctr_process e true 16 (g_ctr m) d). cbn [fst snd] in *. split; [exact I|auto].
  Qed.
End Gcm.
