(** ChaCha20-Poly1305 obeys the laws of the framework. *)
From Coq Require Import ZArith List Bool Arith Lia.
From Verif Require Import Base Blocks HashModel MacProofs Poly1305Model Poly1305Spec Poly1305Proofs AeadModel AeadSpec AeadProofs AeadGcmProofs.
Import ListNotations.
Local Open Scope Z_scope.

(** What every state of the Poly1305 object keeps, keyed or not. *)
Definition pkeep (s : poly) : Prop := length (po_acc s) = 16%nat /\ bytes (po_acc s) /\ (po_idx s < 16)%nat.
Lemma prep_keep : forall s R N m, prep s R N m -> pkeep s.
Proof. intros s R N m [Er En HR HN Hh Hv Hi Ha Hl Hb]. repeat split; auto. rewrite Hi. apply rest_lt. lia. Qed.
Lemma pkeep_update : forall s d, pkeep s -> bytes d -> pkeep (po_update s d).
Proof.
  intros s d (Hl & Hb & Hi) Hd. unfold po_update. destruct (Nat.eqb_spec (length d) 0); [repeat split; auto|].
  assert (T : forall acc inp h, length acc = 16%nat -> bytes acc -> bytes inp ->
    pkeep (let rem := (length inp mod 16)%nat in let len := (length inp - rem)%nat in
      let h2 := if Nat.leb 16 len then hash_blocks len h (po_r s) inp len 1 else h in
      let input2 := if Nat.leb 16 len then skipn len inp else inp in
      let acc2 := if Nat.eqb rem 0 then acc else write 0 (firstn rem input2) acc in
      mkP (po_e s) h2 (po_r s) (po_n s) acc2 rem)).
  { intros acc inp h La Ba Bi. cbv zeta. set (rem := (length inp mod 16)%nat). assert (Hr : (rem < 16)%nat) by (apply Nat.mod_upper_bound; lia).
    set (x := if Nat.leb 16 (length inp - rem) then _ else inp). assert (Bx : bytes x) by (unfold x; destruct (Nat.leb _ _); [apply bytes_skipn|]; auto).
    unfold pkeep. cbn [po_acc po_idx]. destruct (Nat.eqb rem 0); [repeat split; auto|]. split; [|split; [apply bytes_write; [apply bytes_firstn|]; auto|auto]].
    rewrite write_length; [exact La|]. rewrite firstn_length. lia. }
  cbv zeta. destruct (Nat.eqb_spec (po_idx s) 0); [apply T; auto|]. destruct (Nat.leb_spec (16 - po_idx s) (length d)).
  - apply T; [rewrite write_length; [exact Hl|rewrite firstn_length; lia]|apply bytes_write; [apply bytes_firstn|]; auto|apply bytes_skipn; auto].
  - unfold pkeep. cbn [po_acc po_idx]. split; [rewrite write_length; [exact Hl|lia]|]. split; [apply bytes_write; auto|lia].
Qed.
Lemma pkeep_final : forall s n, pkeep s -> pkeep (fst (po_final s n)).
Proof.
  intros s n (Hl & Hb & Hi). unfold po_final. destruct (Nat.ltb 16 n); [repeat split; auto|]. cbn [fst]. unfold pkeep. cbn [po_restart po_acc po_idx].
  destruct (Nat.eqb_spec (po_idx s) 0); [repeat split; auto; lia|]. split; [|split; [|lia]].
  - rewrite write_length; [exact Hl|]. cbn [length]. rewrite repeat_length. lia.
  - apply bytes_write; auto. constructor; [unfold byte; lia|apply bytes_repeat0].
Qed.

Section Chp.
  Variable cblock : list Z -> Z -> list Z.
  Variable ivsize : nat.
  Hypothesis Hc : forall iv n, length (cblock iv n) = 64%nat /\ bytes (cblock iv n).
  Variable bl : nat.
  Notation md := (chp_mode cblock ivsize).
  Notation id := (chp_ideal cblock ivsize).

  Definition ckey (iv : list Z) : list Z := firstn 32 (cblock iv 0).
  Notation rep iv s := (prep s (clamp_words (ckey iv)) (get_quad (skipn 16 (ckey iv)))).
  Definition PK (m : chp) : Prop := pkeep (cp_mac m).
  Definition p_at (iv : list Z) (n : nat) (m : chp) : Prop := cp_iv m = iv /\ cp_first m = 1 /\ cp_pos m = n.
  Definition PH (iv : list Z) (l : option (Z * Z)) (s : list Z) (m : chp) : Prop := rep iv (cp_mac m) s /\ p_at iv 0 m.
  Definition PB (iv : list Z) (l : option (Z * Z)) (hdr : list Z) (n : nat) (s : list Z) (m : chp) : Prop := rep iv (cp_mac m) (pad16 hdr ++ s) /\ p_at iv n m.
  Definition PC (iv hdr txt : list Z) (m : chp) : Prop := rep iv (cp_mac m) (pad16 hdr ++ pad16 txt).

  Lemma ckey_ok : forall iv, length (ckey iv) = 32%nat /\ bytes (ckey iv).
  Proof. intros iv. destruct (Hc iv 0) as [L B]. unfold ckey. split; [apply firstn_length_le; lia|apply bytes_firstn; exact B]. Qed.
  Lemma derived_ok : forall mac iv, snd (chp_cipher cblock (mkCP mac iv 0 0) (repeat 0 32)) = ckey iv.
  Proof.
    intros mac iv. cbn [chp_cipher snd]. rewrite repeat_length. cbn [cp_pos]. unfold ckey. destruct (Hc iv 0) as [L _].
    rewrite <- map_nth_seq by lia. rewrite xorl_zeros_l by (rewrite map_length, seq_length; lia). apply map_ext_in. intros p Hp. apply in_seq in Hp.
    unfold chp_keybyte. cbn [cp_iv cp_first]. rewrite Nat.mod_small, Nat.div_small by lia. reflexivity.
  Qed.
  Lemma resync_ok : forall b iv, PK (b_m b) -> exists s, chp_resync cblock b iv = set_m b (mkCP s iv 1 0) /\ rep iv s [] /\ pkeep s.
  Proof.
    intros b iv (Hl & Hb & Hi). unfold chp_resync. pose proof (derived_ok (cp_mac (b_m b)) iv) as D. destruct (chp_cipher cblock _ _) as [x d]. cbn [snd] in D. subst d.
    destruct (ckey_ok iv) as [L B]. unfold pt_setkey. rewrite L. cbn [Nat.eqb]. eexists. split; [reflexivity|]. 
    assert (P : rep iv (po_restart (mkP (po_e (cp_mac (b_m b))) (po_h (cp_mac (b_m b))) (clamp_words (ckey iv)) (get_quad (skipn 16 (ckey iv))) (po_acc (cp_mac (b_m b))) (po_idx (cp_mac (b_m b))))) []).
    { apply prep_zero; auto; [apply clamp_words_ok; exact B|apply get_quad_ok, bytes_skipn; exact B]. }
    split; [exact P|exact (prep_keep _ _ _ _ P)].
  Qed.
  Lemma mac_ok : forall iv m s d, rep iv (cp_mac m) s -> bytes d -> rep iv (cp_mac (chp_mac m d)) (s ++ d).
  Proof. intros. cbn [chp_mac cp_mac]. apply po_update_spec; auto. Qed.
  Lemma pad_ok : forall l, l ++ chp_pad (len64 l) = pad16 l.
  Proof.
    intros l. unfold chp_pad, pad16, len64. do 2 f_equal. rewrite <- (Z2Nat.id 16), <- Nat2Z.inj_mod by lia. change (Z.to_nat 16) with 16%nat.
    pose proof (Nat.mod_upper_bound (length l) 16 ltac:(lia)). rewrite <- Nat2Z.inj_sub, <- Nat2Z.inj_mod by lia. apply Nat2Z.id.
  Qed.
  Lemma chp_cipher_ok : forall iv n m d, p_at iv n m -> snd (chp_cipher cblock m d) = i_crypt id iv n d.
  Proof. intros iv n m d (H1 & H2 & H3). cbn [chp_cipher snd]. unfold i_crypt. rewrite H3. f_equal. apply map_ext. intros k. unfold chp_keybyte. rewrite H1, H2. reflexivity. Qed.
  Lemma chp_bytes : forall m d, bytes d -> bytes (snd (chp_cipher cblock m d)).
  Proof.
    intros m d H. cbn [chp_cipher snd]. apply xorl_bytes; auto. apply Forall_forall. intros x Hx. apply in_map_iff in Hx. destruct Hx as (y & <- & _). unfold chp_keybyte.
    apply (nth_bytes). apply Hc.
  Qed.
  Lemma pad_bytes : forall t, bytes (chp_pad t).
  Proof. intros. apply bytes_repeat0. Qed.

  Theorem chp_laws : laws md id bl PK (fun _ => []) PH PB PC.
  Proof.
    assert (N1 : forall n, (n mod 1 = 0)%nat) by apply Nat.mod_1_r.
    constructor.
    - cbn. lia.
    - left. reflexivity.
    - reflexivity.
    - reflexivity.
    - reflexivity.
    - reflexivity.
    - cbn [chp_ideal i_maxh]. lia.
    - intros. cbn [chp_ideal i_maxm]. lia.
    - intros. cbn [chp_ideal i_maxm]. lia.
    - intros b iv Hk Hl Hb Hn Hiv Biv. cbn [chp_mode md_resync md_maxm]. destruct (resync_ok b iv Hk) as (s & E & Hs & Ks). rewrite E.
      split; [repeat split|]. split; [reflexivity|]. cbn [set_m b_num b_buf b_m chp_mode md_bs]. split.
      + intros _. unfold wfb. cbn [set_m b_num b_buf b_m chp_mode md_bs]. split; [lia|]. split; [exact Hl|]. split; [exact Hb|exact Ks].
      + intros _. exists []. cbn [set_m b_num b_buf b_m chp_mode md_bs]. rewrite Hn. cbn [firstn app length]. split; [reflexivity|]. split; [reflexivity|]. split; [lia|]. split; [|auto].
        split; [exact Hs|repeat split].
    - intros b iv h m Hk Hl Hb Hn Hiv Biv Hh Hh64 Hm. cbn [chp_mode md_resync md_specify]. destruct (resync_ok b iv Hk) as (s & E & Hs & Ks). rewrite E. cbn zeta.
      do 4 (split; [reflexivity|]). split.
      + intros _. unfold wfb. cbn [set_state set_m b_num b_buf b_m chp_mode md_bs]. split; [lia|]. split; [exact Hl|]. split; [exact Hb|exact Ks].
      + exists []. cbn [set_state set_m b_num b_buf b_m chp_mode md_bs]. rewrite Hn. cbn [firstn app length]. split; [reflexivity|]. split; [reflexivity|]. split; [lia|]. split; [|auto].
        split; [exact Hs|repeat split].
    - intros iv l q m d (A1 & A2) Hp Hd Bd0. cbn [chp_mode md_bs md_blocks chp_blocks fst snd]. rewrite !N1, Nat.sub_0_r, firstn_all. split; [reflexivity|].
      split; [apply mac_ok; auto|exact A2].
    - reflexivity.
    - intros b iv l hdr (q & Es & Hp & Hn & (A1 & A2) & Lb & Bb) Hh Bh. cbn [right_h chp_ideal i_needs negb orb chp_mode md_last_header].
      cbn [app chp_mode md_bs] in *. assert (E0 : b_num b = 0%nat) by lia. rewrite E0 in Es. cbn [firstn] in Es. rewrite app_nil_r in Es. subst q.
      eexists. split; [reflexivity|]. split; [repeat split|]. cbn [set_m b_buf b_m]. split; [exact Lb|]. split; [exact Bb|]. split; [|exact A2].
      rewrite app_nil_r, Hh, <- pad_ok. apply mac_ok; auto. apply pad_bytes.
    - intros iv l hdr n q m d (A1 & A2) Hp Hd Bd0. cbn [chp_mode md_bs md_blocks chp_blocks fst snd]. rewrite !N1, Nat.sub_0_r, firstn_all. split; [reflexivity|].
      split; [rewrite app_assoc; apply mac_ok; auto|exact A2].
    - reflexivity.
    - intros iv l hdr n s m d (A1 & A2) _ Bd0. cbn [chp_mode md_cipher]. rewrite (chp_cipher_ok iv n m d A2). split; [reflexivity|]. split; [rewrite <- (chp_cipher_ok iv n m d A2); apply chp_bytes; exact Bd0|].
      destruct A2 as (P1 & P2 & P3). split; [exact A1|]. unfold p_at. cbn [chp_cipher fst cp_iv cp_first cp_pos]. rewrite P3. auto.
    - intros b iv l hdr txt (q & Es & Hp & Hn & (A1 & A2) & Lb & Bb) Hh Hm Hmx Bh Bt. cbn [right_m right_h chp_ideal i_needs negb orb chp_mode md_last_conf md_bs] in *.
      assert (E0 : b_num b = 0%nat) by lia. rewrite E0 in Es. cbn [firstn] in Es. rewrite app_nil_r in Es. subst q.
      eexists. split; [reflexivity|]. split; [repeat split|]. cbn [set_m b_buf b_m]. split; [exact Lb|]. split; [exact Bb|]. intros _ _.
      unfold PC. rewrite Hm, <- (pad_ok txt), app_assoc. apply mac_ok; auto. apply pad_bytes.
    - reflexivity.
    - intros b iv hdr txt n A1 Hh Hm _ _ Hn. cbn [chp_mode md_last_footer chp_ideal i_tag i_digest] in *. unfold chp_last_footer. rewrite Hh, Hm.
      assert (Bl : bytes (le_bytes 8 (len64 hdr) ++ le_bytes 8 (len64 txt))) by (rewrite bytes_app; split; apply le_bytes_bytes).
      pose proof (mac_ok iv (b_m b) _ _ A1 Bl) as A2. destruct (po_final_spec _ _ _ _ n A2 Hn) as [F1 F2].
      destruct (po_final _ n) as [s o]. cbn [fst snd] in *. subst o. split; [|split; [repeat split|split; [reflexivity|exact (prep_keep _ _ _ _ F2)]]].
      f_equal. unfold chp_tag, poly1305_tls, poly1305_spec. fold (ckey iv). destruct (ckey_ok iv) as [L B].
      rewrite clamp_words_val by (auto; lia). rewrite <- !app_assoc. do 3 f_equal.
      rewrite <- getw_16 by (rewrite skipn_length; lia). rewrite firstn_all2; auto. rewrite skipn_length. lia.
    - intros _ m d Hk Bd0. apply pkeep_update; auto.
    - intros _ m d Hk. cbn. lia.
    - intros _ b b2 (W1 & W2 & W3 & W4) E. cbn [chp_mode md_last_header md_bs] in *. unfold chp_last_header in E.
      apply (f_equal (fun o => match o with Some x => x | None => b end)) in E; cbv beta iota in E; subst b2. split; [repeat split|]. unfold wfb. cbn [set_m b_num b_buf b_m chp_mode md_bs].
      repeat split; auto; apply pkeep_update; auto using pad_bytes.
    - intros _ b b2 (W1 & W2 & W3 & W4) E. cbn [chp_mode md_last_conf md_bs] in *. unfold chp_last_conf in E.
      apply (f_equal (fun o => match o with Some x => x | None => b end)) in E; cbv beta iota in E; subst b2. unfold wfb. cbn [set_m b_num b_buf b_m chp_mode md_bs].
      repeat split; auto; apply pkeep_update; auto using pad_bytes.
    - intros _ b n (W1 & W2 & W3 & W4). cbn [chp_mode md_last_footer]. unfold chp_last_footer. set (m := chp_mac _ _).
      assert (K : pkeep (cp_mac m)) by (apply pkeep_update; [exact W4|rewrite bytes_app; split; apply le_bytes_bytes]).
      pose proof (pkeep_final (cp_mac m) n K) as F. destruct (po_final (cp_mac m) n) as [s o]. cbn [fst] in *. unfold wfb. cbn [set_m b_num b_buf b_m]. repeat split; auto; apply F.
    - intros _ m d Hk Bd0. cbn [chp_mode md_cipher]. split; [exact Hk|]. split; [apply chp_bytes; exact Bd0|]. cbn [chp_cipher snd]. rewrite xorl_length, map_length, seq_length. lia.
  Qed.
End Chp.
