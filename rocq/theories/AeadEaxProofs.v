(** EAX obeys the laws of the framework. *)
From Coq Require Import ZArith List Bool Arith Lia.
From Verif Require Import Base Blocks HashModel ModesModel MacModel MacSpec MacProofs IntegerCodecProofs AeadModel AeadSpec AeadProofs AeadGcmProofs.
Import ListNotations.
Local Open Scope Z_scope.

Lemma xorl_assoc : forall a b c, xorl (xorl a b) c = xorl a (xorl b c).
Proof. induction a as [|x a IH]; intros [|y b] [|z c]; cbn [xorl]; auto. rewrite Z.lxor_assoc, IH. reflexivity. Qed.

Section Eax.
  Variable e : list Z -> list Z.
  Variable B : nat.
  Variable p : Z.
  Hypothesis HB : B <> 0%nat.
  Hypothesis Hp0 : cmac_poly B = Some p.
  Hypothesis He : forall b, length b = B -> length (e b) = B /\ bytes (e b).
  Variable bl : nat.
  Notation md := (eax_mode e B).
  Notation id := (eax_ideal e B p).
  Let He2 : forall k b, length b = B -> length ((fun _ : list Z => e) k b) = B /\ bytes ((fun _ : list Z => e) k b) := fun _ => He.
  Notation rep := (cmrep (fun _ => e) B []).
  Notation omac := (eax_omac e B p).

  Definition XK (m : eax) : Prop := rep (x_mac m) [].
  Definition x_at (iv : list Z) (n : nat) : ctrs := mkC (be_val (omac 0 iv)) (be_val (omac 0 iv)) n.
  Definition XH (iv : list Z) (l : option (Z * Z)) (s : list Z) (m : eax) : Prop :=
    rep (x_mac m) (eax_prefix B 1 ++ s) /\ x_n m = omac 0 iv /\ x_ctr m = x_at iv 0.
  Definition XB (iv : list Z) (l : option (Z * Z)) (hdr : list Z) (n : nat) (s : list Z) (m : eax) : Prop :=
    rep (x_mac m) (eax_prefix B 2 ++ s) /\ x_n m = xorl (omac 0 iv) (omac 1 hdr) /\ x_ctr m = x_at iv n.
  Definition XC (iv hdr txt : list Z) (m : eax) : Prop :=
    rep (x_mac m) (eax_prefix B 2 ++ txt) /\ x_n m = xorl (omac 0 iv) (omac 1 hdr).

  Lemma upd_ok : forall s m d, rep s m -> rep (cm_update B s d) (m ++ d).
  Proof. intros. apply (cm_update_spec (fun _ => e) B HB He2). auto. Qed.
  Lemma digest_ok : forall s m n, rep s m -> (n <= B)%nat -> snd (cm_digest B s n) = firstn n (cmac_spec e B p m) /\ rep (fst (cm_digest B s n)) [].
  Proof.
    intros s m n H Hn. destruct (cm_final_spec (fun _ => e) B HB He2 [] p Hp0 s m n H Hn) as [X1 X2]. unfold cm_digest.
    destruct (cm_final B s n) as [s' o]. cbn [fst snd] in *. subst o. auto.
  Qed.
  Lemma omac_ok : forall t m, length (omac t m) = B /\ bytes (omac t m).
  Proof.
    intros t m. unfold eax_omac. set (x := _ ++ m). unfold cmac_spec. set (n := ((length x - 1) / B)%nat). set (lb := skipn (n * B) x). cbv zeta.
    set (k1 := dbl B p (e (repeat 0 B))). assert (L1 : length k1 = B) by apply be_bytes_length. set (k2 := dbl B p k1). assert (L2 : length k2 = B) by apply be_bytes_length.
    assert (Lb : (length lb <= B)%nat).
    { unfold lb. rewrite skipn_length. pose proof (Nat.div_mod (length x - 1) B HB) as D. fold n in D. pose proof (Nat.mod_upper_bound (length x - 1) B HB). nia. }
    set (msk := if Nat.eqb (length lb) B then _ else _). assert (Lm : length msk = B).
    { unfold msk. destruct (Nat.eqb_spec (length lb) B); rewrite xorl_length; [lia|]. rewrite !app_length, repeat_length. cbn [length]. lia. }
    unfold chain. rewrite fold_left_app. cbn [fold_left]. apply He. rewrite xorl_length, Lm. change (fold_left _ _ _) with (chn (fun _ => e) B [] (firstn (n * B) x)).
    rewrite (chn_length (fun _ => e) B HB He2). lia.
  Qed.
  Lemma firstn_omac : forall t m, firstn B (omac t m) = omac t m.
  Proof. intros. apply firstn_all2. rewrite (proj1 (omac_ok t m)). lia. Qed.
  Lemma zeros_prefix : repeat 0 B = eax_prefix B 0.
  Proof. unfold eax_prefix. destruct B as [|n]; [contradiction|]. cbn [Nat.sub]. rewrite Nat.sub_0_r. clear. induction n as [|n IH]; [reflexivity|]. cbn [repeat app]. rewrite <- IH. reflexivity. Qed.
  Lemma resync_ok : forall b iv, XK (b_m b) -> exists s, eax_resync B b iv = set_m b (mkX s (omac 0 iv) (x_at iv 0)) /\ rep s (eax_prefix B 1).
  Proof.
    intros b iv H. unfold eax_resync. rewrite zeros_prefix. cbv zeta. pose proof (upd_ok _ _ (eax_prefix B 0) H) as U1. pose proof (upd_ok _ _ iv U1) as U2.
    destruct (digest_ok _ _ B U2 (le_n _)) as [D1 D2]. cbn [app] in D1. destruct (cm_digest B _ B) as [s2 n]. cbn [fst snd] in *.
    exists (cm_update B s2 (eax_prefix B 1)). split; [|exact (upd_ok _ _ (eax_prefix B 1) D2)].
    change (cmac_spec e B p (eax_prefix B 0 ++ iv)) with (omac 0 iv) in D1. rewrite firstn_omac in D1. subst n. reflexivity.
  Qed.
  Lemma eax_cipher_ok : forall iv n d, snd (ctr_process e false B (x_at iv n) d) = i_crypt id iv n d.
  Proof.
    intros iv n d. cbn [ctr_process snd]. unfold i_crypt. f_equal. cbn [x_at c_pos]. apply map_ext. intros k.
    unfold ctr_keybyte. cbn [c_start eax_ideal i_stream]. unfold eax_keystream, ctr_after. f_equal. f_equal. apply be_val_inj; try apply be_bytes_bytes; [rewrite !be_bytes_length; reflexivity|].
    rewrite !be_val_bytes_mod. apply Z.mod_mod. apply Z.pow_nonzero; lia.
  Qed.
  Lemma xor_firstn : forall n a b, xorl (firstn n a) (firstn n b) = firstn n (xorl a b).
  Proof. induction n as [|n IH]; intros [|x a] [|y b]; cbn [firstn xorl]; auto. rewrite IH. reflexivity. Qed.

  Theorem eax_laws : laws md id bl XK (fun _ => []) XH XB XC.
  Proof.
    assert (N1 : forall n, (n mod 1 = 0)%nat) by apply Nat.mod_1_r.
    constructor.
    - cbn. lia.
    - left. reflexivity.
    - reflexivity.
    - reflexivity.
    - reflexivity.
    - reflexivity.
    - cbn [eax_ideal i_maxh]. lia.
    - intros. cbn [eax_ideal i_maxm]. lia.
    - intros. cbn [eax_ideal i_maxm]. lia.
    - intros b iv Hk Hl Hb Hn Hiv Biv. cbn [eax_mode md_resync md_maxm]. destruct (resync_ok b iv Hk) as (s & E & Hs). rewrite E.
      split; [repeat split|]. split; [reflexivity|]. split; [intros X; discriminate X|]. intros _. exists []. cbn [set_m b_num b_buf b_m eax_mode md_bs]. rewrite Hn.
      cbn [firstn app length]. split; [reflexivity|]. split; [reflexivity|]. split; [lia|]. split; [|auto]. unfold XH. cbn [x_mac x_n x_ctr]. rewrite app_nil_r. auto.
    - intros b iv h m Hk Hl Hb Hn Hiv Biv Hh Hh64 Hm. cbn [eax_mode md_resync md_specify]. destruct (resync_ok b iv Hk) as (s & E & Hs). rewrite E. cbn zeta.
      do 4 (split; [reflexivity|]). split; [intros X; discriminate X|]. exists []. cbn [set_state set_m b_num b_buf b_m eax_mode md_bs]. rewrite Hn.
      cbn [firstn app length]. split; [reflexivity|]. split; [reflexivity|]. split; [lia|]. split; [|auto]. unfold XH. cbn [x_mac x_n x_ctr]. rewrite app_nil_r. auto.
    - intros iv l q m d (A1 & A2 & A3) Hp Hd Bd0. cbn [eax_mode md_bs md_blocks eax_blocks fst snd]. rewrite !N1, Nat.sub_0_r, firstn_all. split; [reflexivity|].
      unfold XH. cbn [x_mac x_n x_ctr]. rewrite app_assoc. split; [apply upd_ok; exact A1|auto].
    - reflexivity.
    - intros b iv l hdr (q & Es & Hp & Hn & (A1 & A2 & A3) & Lb & Bb) _ Bh. cbn [right_h eax_ideal i_needs negb orb eax_mode md_last_header].
      cbn [app eax_mode md_bs] in *. assert (E0 : b_num b = 0%nat) by lia. rewrite E0 in Es. cbn [firstn] in Es. rewrite app_nil_r in Es. subst q.
      unfold eax_last_header. destruct (digest_ok _ _ B A1 (le_n _)) as [D1 D2]. destruct (cm_digest B (x_mac (b_m b)) B) as [s t]. cbn [fst snd] in *.
      eexists. split; [reflexivity|]. split; [repeat split|]. cbn [set_m b_buf b_m]. split; [exact Lb|]. split; [exact Bb|].
      unfold XB. cbn [x_mac x_n x_ctr]. rewrite app_nil_r. split; [exact (upd_ok _ _ (eax_prefix B 2) D2)|]. split; [|exact A3].
      change (cmac_spec e B p (eax_prefix B 1 ++ hdr)) with (omac 1 hdr) in D1. rewrite A2, D1, firstn_omac. reflexivity.
    - intros iv l hdr n q m d (A1 & A2 & A3) Hp Hd Bd0. cbn [eax_mode md_bs md_blocks eax_blocks fst snd]. rewrite !N1, Nat.sub_0_r, firstn_all. split; [reflexivity|].
      unfold XB. cbn [x_mac x_n x_ctr]. rewrite app_assoc. split; [apply upd_ok; exact A1|auto].
    - reflexivity.
    - intros iv l hdr n s m d (A1 & A2 & A3) _ Bd0. cbn [eax_mode md_cipher]. unfold eax_cipher. rewrite A3. pose proof (eax_cipher_ok iv n d) as X.
      pose proof (process_bytes e B He false (x_at iv n) d Bd0) as Y. rewrite X in Y.
      destruct (ctr_process e false B (x_at iv n) d) as [c out] eqn:E. cbn [fst snd] in *. split; [exact X|]. split; [exact Y|].
      unfold XB. cbn [x_mac x_n x_ctr]. split; [exact A1|]. split; [exact A2|]. unfold ctr_process in E. injection E as E _. rewrite <- E. reflexivity.
    - intros b iv l hdr txt (q & Es & Hp & Hn & (A1 & A2 & A3) & Lb & Bb) Hh Hm Hmx Bh Bt. cbn [right_m right_h eax_ideal i_needs negb orb eax_mode md_last_conf md_bs] in *.
      assert (E0 : b_num b = 0%nat) by lia. rewrite E0 in Es. cbn [firstn] in Es. rewrite app_nil_r in Es. subst q.
      exists b. split; [reflexivity|]. split; [repeat split|]. split; [exact Lb|]. split; [exact Bb|]. intros _ _. split; [exact A1|exact A2].
    - reflexivity.
    - intros b iv hdr txt n (A1 & A2) _ _ _ _ Hn. cbn [eax_mode md_last_footer eax_ideal i_tag i_digest] in *. unfold eax_last_footer.
      destruct (digest_ok _ _ n A1 Hn) as [D1 D2]. destruct (cm_digest B (x_mac (b_m b)) n) as [s t]. cbn [fst snd] in *. split; [|split; [repeat split|split; [reflexivity|exact D2]]].
      rewrite D1, A2. change (cmac_spec e B p (eax_prefix B 2 ++ txt)) with (omac 2 txt). rewrite xor_firstn. f_equal. unfold eax_tag.
      rewrite (xorl_comm (omac 0 iv) (omac 2 txt)), xorl_assoc. reflexivity.
    - intros X; discriminate X.
    - intros X; discriminate X.
    - intros X; discriminate X.
    - intros X; discriminate X.
    - intros X; discriminate X.
    - intros X; discriminate X.
  Qed.
End Eax.
