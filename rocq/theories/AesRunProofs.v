(** Lemmas for Rijndael: the whole block function, decryption keys and the two directions. *)
From Coq Require Import ZArith List Bool Arith Lia Ring.
From Verif Require Import Base CipherModel CipherSpec CipherProofs AesModel AesSpec AesProofs.
Import ListNotations.
Local Open Scope Z_scope.

Definition Wl (s : list Z) : st4 := four (WL s) 0.
Lemma Wl_w4 : forall a b c d e f g h i j k l m n o p,
  Wl [a; b; c; d; e; f; g; h; i; j; k; l; m; n; o; p] = (w4 d c b a, w4 h g f e, w4 l k j i, w4 p o n m).
Proof. intros. rewrite <- !le_w4. reflexivity. Qed.

Lemma first_e_spec : forall K s, blk s -> round_e (quarter_f Te) K (Wl s) = round_e (quarter_m Te) K (W s).
Proof.
  intros K s Hs. explode s Hs. rewrite Wl_w4, W_w4. unfold round_e. destruct K as [[[? ?] ?] ?].
  rewrite !quarter_f_te by assumption. rewrite !quarter_m_at by assumption. rewrite !quarter_f_te by assumption.
  rewrite !quarter_m_at by assumption. rewrite !quarter_f_te by assumption.
  rewrite !quarter_m_at by assumption. rewrite !quarter_f_te by assumption. rewrite !quarter_m_at by assumption. reflexivity.
Qed.
Lemma first_d_spec : forall K s, blk s -> round_d (quarter_f Td) K (Wl s) = round_d (quarter_m Td) K (W s).
Proof.
  intros K s Hs. explode s Hs. rewrite Wl_w4, W_w4. unfold round_d. destruct K as [[[? ?] ?] ?].
  rewrite !quarter_f_td by assumption. rewrite !quarter_m_at by assumption. rewrite !quarter_f_td by assumption.
  rewrite !quarter_m_at by assumption. rewrite !quarter_f_td by assumption.
  rewrite !quarter_m_at by assumption. rewrite !quarter_f_td by assumption. rewrite !quarter_m_at by assumption. reflexivity.
Qed.

Lemma last_enc_spec : forall s, blk s -> last_enc (W s) = shift_rows (sub_bytes s).
Proof.
  intros s Hs. explode s Hs. flat. rewrite W_w4. unfold last_enc, quarter_l. cbv zeta.
  rewrite !w4_b0, !w4_b1, !w4_b2, !w4_b3 by assumption. rewrite !last_e_sbox by assumption. reflexivity.
Qed.
Lemma last_dec_spec : forall s, blk s -> last_dec (W s) = inv_sub_bytes (inv_shift_rows s).
Proof.
  intros s Hs. explode s Hs. flat. rewrite W_w4. unfold last_dec, quarter_l. cbv zeta.
  rewrite !w4_b0, !w4_b1, !w4_b2, !w4_b3 by assumption. rewrite !inv_sbox_sd by assumption. reflexivity.
Qed.

(* ------------------------------------------------------------------ *)
(** ** Blocks stay blocks *)

Ltac blk_tac := split; [repeat (apply Forall_cons; [|]); try apply Forall_nil; gexp; auto 12 with aes | reflexivity].
Lemma xorl_blk : forall a b, blk a -> blk b -> blk (xorl a b).
Proof. intros a b Ha Hb. explode a Ha. explode b Hb. cbv [xorl]. blk_tac. Qed.
Lemma shift_sub_blk : forall s, blk s -> blk (shift_rows (sub_bytes s)).
Proof. intros s Hs. explode s Hs. flat. blk_tac. Qed.
Lemma inv_shift_sub_blk : forall s, blk s -> blk (inv_sub_bytes (inv_shift_rows s)).
Proof. intros s Hs. explode s Hs. flat. blk_tac. Qed.
Lemma mix_blk : forall s, blk s -> blk (mix_columns s).
Proof. intros s Hs. explode s Hs. flat. blk_tac. Qed.
Lemma inv_mix_blk : forall s, blk s -> blk (inv_mix_columns s).
Proof. intros s Hs. explode s Hs. flat. blk_tac. Qed.
Lemma R_enc_blk : forall k s, blk k -> blk s -> blk (R_enc k s).
Proof. intros. apply xorl_blk; auto. apply mix_blk, shift_sub_blk. auto. Qed.
Lemma R_dec_blk : forall k s, blk k -> blk s -> blk (R_dec k s).
Proof. intros. apply xorl_blk; auto. apply inv_mix_blk, inv_shift_sub_blk. auto. Qed.

(** The steps undo each other. *)
Lemma cons_eq : forall (a b : Z) l m, a = b -> l = m -> a :: l = b :: m. Proof. intros. subst. reflexivity. Qed.
Ltac list_eq := repeat (apply cons_eq; [|]); [.. | reflexivity].
Lemma inv_mix_mix : forall s, blk s -> inv_mix_columns (mix_columns s) = s.
Proof. intros s Hs. explode s Hs. flat. list_eq; gexp; xor_solve. Qed.
Lemma mix_inv_mix : forall s, blk s -> mix_columns (inv_mix_columns s) = s.
Proof. intros s Hs. explode s Hs. flat. list_eq; gexp; xor_solve. Qed.
Lemma inv_shift_sub_of : forall s, blk s -> inv_sub_bytes (inv_shift_rows (shift_rows (sub_bytes s))) = s.
Proof. intros s Hs. explode s Hs. flat. rewrite !inv_sbox_sbox by assumption. reflexivity. Qed.
Lemma shift_sub_of_inv : forall s, blk s -> shift_rows (sub_bytes (inv_sub_bytes (inv_shift_rows s))) = s.
Proof. intros s Hs. explode s Hs. flat. rewrite !sbox_inv_sbox by assumption. reflexivity. Qed.
Lemma inv_mix_xorl : forall s t, blk s -> blk t -> inv_mix_columns (xorl s t) = xorl (inv_mix_columns s) (inv_mix_columns t).
Proof. intros s t Hs Ht. explode s Hs. explode t Ht. flat. list_eq; gexp; xor_solve. Qed.
Lemma xorl_xorl : forall s t, blk s -> blk t -> xorl (xorl s t) t = s.
Proof. intros s t Hs Ht. explode s Hs. explode t Ht. cbv [xorl]. list_eq; xor_solve. Qed.

(* ------------------------------------------------------------------ *)
(** ** The block function for given round keys *)

Lemma WB_length : forall s, length (WB s) = 4%nat. Proof. reflexivity. Qed.
Lemma WL_length : forall s, length (WL s) = 4%nat. Proof. reflexivity. Qed.
Lemma flat_WB_length : forall ks, length (flat_map WB ks) = (4 * length ks)%nat.
Proof. induction ks; cbn [flat_map length]; auto. rewrite app_length, IHks, WB_length. lia. Qed.

Lemma four_at : forall pre ws post, length ws = 4%nat -> four (pre ++ ws ++ post) (length pre) = four ws 0.
Proof.
  intros pre ws post L. unfold four, kat. do 4 (destruct ws as [|? ws]; [discriminate L|]). destruct ws; [|discriminate L].
  rewrite !app_nth2_plus. replace (length pre) with (length pre + 0)%nat at 1 by lia. rewrite app_nth2_plus. reflexivity.
Qed.

Section Run.
  Variables (first round : st4 -> st4 -> st4) (lst : st4 -> list Z).
  Variables (R : list Z -> list Z -> list Z) (L : list Z -> list Z).
  Hypothesis Hfirst : forall K s, blk s -> first K (Wl s) = round K (W s).
  Hypothesis Hround : forall k s, blk k -> blk s -> round (W k) (W s) = W (R k s).
  Hypothesis Hlast : forall s, blk s -> lst (W s) = L s.
  Hypothesis HR : forall k s, blk k -> blk s -> blk (R k s).
  Hypothesis HL : forall s, blk s -> blk (L s).

  Lemma fold_R_blk : forall ks s, Forall blk ks -> blk s -> blk (fold_left (fun s k => R k s) ks s).
  Proof. induction ks; intros s Hk Hs; cbn [fold_left]; auto. inversion Hk; subst. apply IHks; auto. Qed.

  Lemma aes_loop_spec : forall r ks pre post off s, length ks = (2 * (r + 1))%nat -> Forall blk ks -> blk s -> off = length pre ->
    aes_loop round (r + 1) (pre ++ flat_map WB ks ++ post) off (W s) =
    (W (fold_left (fun s k => R k s) ks s), (off + 4 * length ks)%nat).
  Proof.
    induction r; intros ks pre post off s Lk Hk Hs ->.
    - do 2 (destruct ks as [|? ks]; [discriminate Lk|]). destruct ks; [|discriminate Lk].
      inversion Hk as [|? ? H1 H2]; subst. inversion H2 as [|? ? H3 _]; subst.
      cbn [Nat.add aes_loop flat_map]. rewrite <- !app_assoc. rewrite four_at by reflexivity. fold (W l).
      rewrite Hround by auto. rewrite (app_assoc pre (WB l)).
      replace (length pre + 4)%nat with (length (pre ++ WB l)) by (rewrite app_length, WB_length; lia).
      rewrite four_at by reflexivity. fold (W l0). rewrite Hround by auto. cbn [fold_left length].
      f_equal.
    - destruct ks as [|k1 ks]; [discriminate Lk|]. destruct ks as [|k2 ks]; [cbn in Lk; lia|].
      inversion Hk as [|? ? H1 H2]; subst. inversion H2 as [|? ? H3 H4]; subst.
      replace (S r + 1)%nat with (S (r + 1))%nat by lia. cbn [aes_loop flat_map]. rewrite <- !app_assoc.
      rewrite four_at by reflexivity. fold (W k1). rewrite Hround by auto. rewrite (app_assoc pre (WB k1)).
      replace (length pre + 4)%nat with (length (pre ++ WB k1)) by (rewrite app_length, WB_length; lia).
      rewrite four_at by reflexivity. fold (W k2). rewrite Hround by auto.
      replace (r + 1)%nat with (S r) by lia. cbv iota. replace (S r) with (r + 1)%nat by lia.
      rewrite (app_assoc (pre ++ WB k1)).
      rewrite (IHr ks ((pre ++ WB k1) ++ WB k2) post); auto.
      + cbn [fold_left length]. f_equal. lia.
      + cbn [length] in Lk. lia.
      + rewrite !app_length, !WB_length. lia.
  Qed.

  (** Little-endian words of an exclusive or. *)
  Lemma WL_xor : forall s k, blk s -> blk k ->
    [Z.lxor (kat (WL s) 0) (kat (WL k) 0); Z.lxor (kat (WL s) 1) (kat (WL k) 1);
     Z.lxor (kat (WL s) 2) (kat (WL k) 2); Z.lxor (kat (WL s) 3) (kat (WL k) 3)] = WL (xorl s k).
  Proof.
    intros s k Hs Hk. explode s Hs. explode k Hk. unfold kat, WL. cbn [get_block firstn skipn nth word_of xorl].
    rewrite !le_w4, !w4_lxor by assumption. reflexivity.
  Qed.
  Lemma WL_list : forall s, WL s = [kat (WL s) 0; kat (WL s) 1; kat (WL s) 2; kat (WL s) 3].
  Proof. reflexivity. Qed.

  Lemma aes_words_spec : forall k0 k1 ks kl r rounds s, length ks = (2 * (r + 1))%nat -> rounds = (2 * (r + 1) + 2)%nat ->
    blk k0 -> blk k1 -> Forall blk ks -> blk kl -> blk s ->
    aes_words first round lst rounds (WL k0 ++ flat_map WB (k1 :: ks) ++ WL kl) (WL s) =
    Some (WL (xorl (L (fold_left (fun s k => R k s) (k1 :: ks) (xorl s k0))) kl)).
  Proof.
    intros k0 k1 ks kl r rounds s Lk -> H0 H1 Hk Hl Hs.
    assert (Hx : blk (xorl s k0)) by (apply xorl_blk; auto).
    assert (HF : blk (fold_left (fun s k => R k s) ks (R k1 (xorl s k0)))) by (apply fold_R_blk; auto).
    unfold aes_words. set (rk := WL k0 ++ flat_map WB (k1 :: ks) ++ WL kl).
    assert (E0 : (Z.lxor (kat (WL s) 0) (kat rk 0), Z.lxor (kat (WL s) 1) (kat rk 1),
                  Z.lxor (kat (WL s) 2) (kat rk 2), Z.lxor (kat (WL s) 3) (kat rk 3)) = Wl (xorl s k0)).
    { unfold Wl, four. rewrite <- (WL_xor s k0 Hs H0). reflexivity. }
    rewrite E0. assert (E1 : four rk 4 = W k1).
    { unfold rk. cbn [flat_map]. rewrite <- app_assoc. apply (four_at (WL k0) (WB k1)). reflexivity. }
    rewrite E1, Hfirst, Hround by auto.
    replace (Nat.div (2 * (r + 1) + 2) 2 - 1)%nat with (r + 1)%nat
      by (replace (2 * (r + 1) + 2)%nat with ((r + 2) * 2)%nat by lia; rewrite Nat.div_mul by lia; lia).
    assert (E2 : rk = (WL k0 ++ WB k1) ++ flat_map WB ks ++ WL kl).
    { unfold rk. cbn [flat_map]. rewrite <- !app_assoc. reflexivity. }
    rewrite E2. rewrite (aes_loop_spec r ks (WL k0 ++ WB k1) (WL kl) 8) by auto. rewrite Hlast by auto.
    cbn [fold_left].
    assert (E3 : forall j, kat ((WL k0 ++ WB k1) ++ flat_map WB ks ++ WL kl) (8 + 4 * length ks + j) = kat (WL kl) j).
    { intros j. unfold kat. rewrite app_nth2 by (rewrite app_length, WL_length, WB_length; lia).
      rewrite app_length, WL_length, WB_length. rewrite app_nth2 by (rewrite flat_WB_length; lia).
      rewrite flat_WB_length. f_equal. lia. }
    pose proof (E3 0%nat) as E30. rewrite Nat.add_0_r in E30. rewrite E30, !E3. f_equal.
    apply (WL_xor _ kl); auto.
  Qed.
End Run.
