(** Lemmas for Rijndael: the key schedule and the keys of the two objects. *)
From Coq Require Import ZArith List Bool Arith Lia Ring.
From Verif Require Import Base CipherModel CipherSpec CipherProofs AesModel AesSpec AesProofs AesRunProofs.
Import ListNotations.
Local Open Scope Z_scope.

(* ------------------------------------------------------------------ *)
(** ** The standard's key expansion *)

Definition w4b (w : list Z) : Prop := bytes w /\ length w = 4%nat.

Lemma w4b_inv : forall w, w4b w -> exists a b c d, w = [a; b; c; d] /\ (byte a /\ byte b) /\ byte c /\ byte d.
Proof.
  intros w [B L]. do 4 (destruct w as [|? w]; [discriminate L|]). destruct w; [|discriminate L].
  inversion B as [|? ? H1 B1]; subst. inversion B1 as [|? ? H2 B2]; subst. inversion B2 as [|? ? H3 B3]; subst.
  inversion B3; subst. do 4 eexists. split; [reflexivity|]. auto.
Qed.
Lemma w4b_mk : forall a b c d, byte a -> byte b -> byte c -> byte d -> w4b [a; b; c; d].
Proof. intros. split; [|reflexivity]. repeat (apply Forall_cons; [assumption|]). apply Forall_nil. Qed.
Lemma w4b_xorl : forall a b, w4b a -> w4b b -> w4b (xorl a b).
Proof.
  intros a b Ha Hb. apply w4b_inv in Ha, Hb. destruct Ha as (a0 & a1 & a2 & a3 & -> & (? & ?) & ? & ?).
  destruct Hb as (b0 & b1 & b2 & b3 & -> & (? & ?) & ? & ?). cbn [xorl]. apply w4b_mk; auto with aes.
Qed.
Lemma be_val_xorl4 : forall a b, w4b a -> w4b b -> be_val (xorl a b) = Z.lxor (be_val a) (be_val b).
Proof.
  intros a b Ha Hb. apply w4b_inv in Ha, Hb. destruct Ha as (a0 & a1 & a2 & a3 & -> & (? & ?) & ? & ?).
  destruct Hb as (b0 & b1 & b2 & b3 & -> & (? & ?) & ? & ?). cbn [xorl].
  fold (w4 a0 a1 a2 a3). fold (w4 b0 b1 b2 b3). rewrite w4_lxor by auto. reflexivity.
Qed.

Section Expansion.
  Variables (nk : nat) (key0 : list (list Z)).
  Hypothesis Hnk : (nk = 4 \/ nk = 6 \/ nk = 8)%nat.
  Hypothesis Hkey : length key0 = nk /\ Forall w4b key0.

  Let grow (n : nat) := fold_left (fun w i => w ++ [next_word nk i w]) (seq nk n) key0.

  Lemma iter_xtime_byte : forall n, byte (Nat.iter n xtime 1).
  Proof. induction n; cbn [Nat.iter nat_rect]. unfold byte; lia. apply xtime_byte. auto. Qed.
  Lemma rcon_word_w4b : forall i, w4b (rcon_word i).
  Proof. intros. apply w4b_mk; auto with aes. apply iter_xtime_byte. Qed.
  Lemma sub_word_w4b : forall w, w4b w -> w4b (sub_word w).
  Proof. intros w Hw. apply w4b_inv in Hw. destruct Hw as (a & b & c & d & -> & (? & ?) & ? & ?). apply w4b_mk; auto with aes. Qed.
  Lemma rot_word_w4b : forall w, w4b w -> w4b (rot_word w).
  Proof. intros w Hw. apply w4b_inv in Hw. destruct Hw as (a & b & c & d & -> & (? & ?) & ? & ?). apply w4b_mk; auto with aes. Qed.
  Lemma next_word_w4b : forall i w, Forall w4b w -> (nk <= i)%nat -> (i <= length w)%nat -> w4b (next_word nk i w).
  Proof.
    intros i w Hw Hi Hl. unfold next_word.
    assert (A : w4b (nth (i - 1) w [])) by (rewrite Forall_forall in Hw; apply Hw, nth_In; lia).
    assert (B : w4b (nth (i - nk) w [])) by (rewrite Forall_forall in Hw; apply Hw, nth_In; lia).
    apply w4b_xorl; auto. destruct (i mod nk =? 0)%nat.
    - apply w4b_xorl; [|apply rcon_word_w4b]. apply sub_word_w4b, rot_word_w4b. auto.
    - destruct (_ && _); auto. apply sub_word_w4b. auto.
  Qed.
  Lemma grow_S : forall n, grow (S n) = grow n ++ [next_word nk (nk + n) (grow n)].
  Proof. intros. unfold grow. rewrite seq_S, fold_left_app. reflexivity. Qed.
  Lemma grow_inv : forall n, length (grow n) = (nk + n)%nat /\ Forall w4b (grow n).
  Proof.
    induction n.
    - unfold grow. cbn [seq fold_left]. destruct Hkey as [-> H]. split; [lia|auto].
    - destruct IHn as [L F]. rewrite grow_S, app_length, L. split; [cbn; lia|].
      apply Forall_app. split; auto. apply Forall_cons; [|apply Forall_nil]. apply next_word_w4b; auto; lia.
  Qed.
  Lemma grow_prefix : forall n m, (n <= m)%nat -> exists t, grow m = grow n ++ t.
  Proof.
    intros n m Hm. induction Hm.
    - exists []. rewrite app_nil_r. auto.
    - destruct IHHm as [t E]. rewrite grow_S, E. eexists. rewrite <- app_assoc. reflexivity.
  Qed.
  Lemma grow_nth : forall n m i, (n <= m)%nat -> (i < nk + n)%nat -> nth i (grow m) [] = nth i (grow n) [].
  Proof. intros n m i Hm Hi. destruct (grow_prefix n m Hm) as [t ->]. apply app_nth1. rewrite (proj1 (grow_inv n)). auto. Qed.
  Lemma grow_rec : forall m i, (nk <= i < nk + m)%nat -> nth i (grow m) [] = next_word nk i (grow m).
  Proof.
    intros m i Hi. rewrite (grow_nth (S (i - nk)) m) by lia. rewrite grow_S, app_nth2 by (rewrite (proj1 (grow_inv _)); lia).
    rewrite (proj1 (grow_inv _)). replace (i - (nk + (i - nk)))%nat with 0%nat by lia. cbn [nth].
    replace (nk + (i - nk))%nat with i by lia. unfold next_word.
    rewrite (grow_nth (i - nk) m (i - 1)) by lia. rewrite (grow_nth (i - nk) m (i - nk)) by lia. reflexivity.
  Qed.

  (** The code's array while it fills up. *)
  Variable m : nat.
  Let Wd := grow m.
  Definition filled (n : nat) (key : list Z) : Prop :=
    length key = (nk + m)%nat /\ forall i, (i < n)%nat -> kat key i = be_val (nth i Wd []).

  Lemma Wd_w4b : forall i, (i < nk + m)%nat -> w4b (nth i Wd []).
  Proof.
    intros i Hi. destruct (grow_inv m) as [L F]. rewrite Forall_forall in F. apply F, nth_In. fold Wd in L |- *. lia.
  Qed.
  Lemma fill_step : forall n key v, filled n key -> (n < nk + m)%nat -> v = be_val (nth n Wd []) -> filled (S n) (upd n v key).
  Proof.
    intros n key v [L H] Hn ->. split; [rewrite upd_length; auto|]. intros i Hi. unfold kat.
    destruct (Nat.eq_dec i n) as [->|N].
    - apply upd_nth_eq. lia.
    - rewrite upd_nth_neq by auto. apply H. lia.
  Qed.

  Lemma mod_at : forall q j, (j < nk)%nat -> ((nk * q + j) mod nk = j /\ (nk * q + j) / nk = q)%nat.
  Proof.
    intros q j Hj. split.
    - rewrite Nat.add_comm, Nat.mul_comm, Nat.mod_add by lia. apply Nat.mod_small. auto.
    - rewrite Nat.mul_comm, Nat.div_add_l by lia. rewrite Nat.div_small by lia. lia.
  Qed.

  (** The value of each word in the code's terms. *)
  Lemma val_0 : forall q, (nk * (q + 1) < nk + m)%nat -> (q < 10)%nat ->
    let temp := be_val (nth (nk * (q + 1) - 1) Wd []) in
    be_val (nth (nk * (q + 1)) Wd []) =
    Z.lxor (Z.lxor (be_val (nth (nk * q) Wd []))
      (Z.lxor (Z.lxor (Z.lxor (Z.shiftl (se (getbyte temp 2)) 24) (Z.shiftl (se (getbyte temp 1)) 16))
                 (Z.shiftl (se (getbyte temp 0)) 8)) (se (getbyte temp 3)))) (hd 0 (skipn q rcon)).
  Proof.
    intros q Hq H10 temp. unfold temp. clear temp.
    assert (A : w4b (nth (nk * (q + 1) - 1) Wd [])) by (apply Wd_w4b; lia).
    assert (B : w4b (nth (nk * q) Wd [])) by (apply Wd_w4b; lia).
    unfold Wd at 1. rewrite grow_rec by lia. fold Wd. unfold next_word.
    destruct (mod_at (q + 1) 0) as [M D]; [lia|]. rewrite Nat.add_0_r in M, D. rewrite M, D. cbn [Nat.eqb].
    replace (nk * (q + 1) - nk)%nat with (nk * q)%nat by lia.
    assert (R : be_val (rcon_word (q + 1)) = hd 0 (skipn q rcon)).
    { do 10 (destruct q; [reflexivity|]). lia. }
    apply w4b_inv in A. destruct A as (a & b & c & d & E & (? & ?) & ? & ?). rewrite E.
    assert (S4 : w4b (sub_word (rot_word [a; b; c; d]))) by (apply sub_word_w4b, rot_word_w4b, w4b_mk; auto).
    rewrite be_val_xorl4; [|auto|apply w4b_xorl; [auto|apply rcon_word_w4b]].
    rewrite be_val_xorl4; [|auto|apply rcon_word_w4b]. rewrite R, Z.lxor_assoc. f_equal. f_equal.
    fold (w4 a b c d). rewrite getbyte_0, getbyte_1, getbyte_2, getbyte_3 by auto.
    cbn [rot_word tl hd app sub_word map]. rewrite w4_shifts by (auto with aes). rewrite !sbox_se by auto. reflexivity.
  Qed.
  Lemma val_copy : forall q j, (0 < j < nk)%nat -> (nk * (q + 1) + j < nk + m)%nat -> (nk = 8 -> j <> 4)%nat ->
    be_val (nth (nk * (q + 1) + j) Wd []) =
    Z.lxor (be_val (nth (nk * q + j) Wd [])) (be_val (nth (nk * (q + 1) + j - 1) Wd [])).
  Proof.
    intros q j Hj Hq H4.
    assert (A : w4b (nth (nk * (q + 1) + j - 1) Wd [])) by (apply Wd_w4b; lia).
    assert (B : w4b (nth (nk * q + j) Wd [])) by (apply Wd_w4b; lia).
    unfold Wd at 1. rewrite grow_rec by lia. fold Wd. unfold next_word.
    destruct (mod_at (q + 1) j) as [M D]; [lia|]. rewrite M.
    replace (nk * (q + 1) + j - nk)%nat with (nk * q + j)%nat by lia.
    destruct (Nat.eqb_spec j 0); [lia|].
    replace ((6 <? nk) && (j =? 4))%nat with false. { apply be_val_xorl4; auto. }
    symmetry. apply andb_false_iff. destruct (Nat.ltb_spec 6 nk); auto. right. apply Nat.eqb_neq. lia.
  Qed.
  Lemma val_4 : forall q, nk = 8%nat -> (nk * (q + 1) + 4 < nk + m)%nat ->
    let temp := be_val (nth (nk * (q + 1) + 3) Wd []) in
    be_val (nth (nk * (q + 1) + 4) Wd []) =
    Z.lxor (Z.lxor (Z.lxor (Z.lxor (be_val (nth (nk * q + 4) Wd [])) (Z.shiftl (se (getbyte temp 3)) 24))
                 (Z.shiftl (se (getbyte temp 2)) 16)) (Z.shiftl (se (getbyte temp 1)) 8)) (se (getbyte temp 0)).
  Proof.
    intros q H8 Hq temp. unfold temp. clear temp.
    assert (A : w4b (nth (nk * (q + 1) + 3) Wd [])) by (apply Wd_w4b; lia).
    assert (B : w4b (nth (nk * q + 4) Wd [])) by (apply Wd_w4b; lia).
    unfold Wd at 1. rewrite grow_rec by lia. fold Wd. unfold next_word.
    destruct (mod_at (q + 1) 4) as [M D]; [lia|]. rewrite M.
    replace (nk * (q + 1) + 4 - nk)%nat with (nk * q + 4)%nat by lia.
    replace (nk * (q + 1) + 4 - 1)%nat with (nk * (q + 1) + 3)%nat by lia.
    replace ((6 <? nk) && (4 =? 4))%nat with true by (rewrite H8; reflexivity). cbn [Nat.eqb].
    apply w4b_inv in A. destruct A as (a & b & c & d & E & (? & ?) & ? & ?). rewrite E.
    rewrite be_val_xorl4; [|auto|apply sub_word_w4b, w4b_mk; auto].
    fold (w4 a b c d). rewrite getbyte_0, getbyte_1, getbyte_2, getbyte_3 by auto.
    cbn [sub_word map]. rewrite !sbox_se by auto.
    change (be_val [se a; se b; se c; se d]) with (w4 (se a) (se b) (se c) (se d)).
    rewrite <- w4_shifts by (auto with aes). xor_solve.
  Qed.

  Definition half (off : nat) (rc key : list Z) : list Z :=
      let temp := kat key (off + nk - 1) in
      let x := Z.lxor (Z.lxor (Z.lxor (Z.shiftl (se (getbyte temp 2)) 24) (Z.shiftl (se (getbyte temp 1)) 16))
                 (Z.shiftl (se (getbyte temp 0)) 8)) (se (getbyte temp 3)) in
      let key := upd (off + nk) (Z.lxor (Z.lxor (kat key off) x) (hd 0 rc)) key in
      let key := upd (off + nk + 1) (Z.lxor (kat key (off + 1)) (kat key (off + nk))) key in
      let key := upd (off + nk + 2) (Z.lxor (kat key (off + 2)) (kat key (off + nk + 1))) key in
      upd (off + nk + 3) (Z.lxor (kat key (off + 3)) (kat key (off + nk + 2))) key.
  Definition rest (off : nat) (key : list Z) : list Z :=
          if (nk =? 6)%nat then
            let key := upd (off + 10) (Z.lxor (kat key (off + 4)) (kat key (off + 9))) key in
            upd (off + 11) (Z.lxor (kat key (off + 5)) (kat key (off + 10))) key
          else if (nk =? 8)%nat then
            let temp := kat key (off + 11) in
            let key := upd (off + 12)
              (Z.lxor (Z.lxor (Z.lxor (Z.lxor (kat key (off + 4)) (Z.shiftl (se (getbyte temp 3)) 24))
                 (Z.shiftl (se (getbyte temp 2)) 16)) (Z.shiftl (se (getbyte temp 1)) 8)) (se (getbyte temp 0))) key in
            let key := upd (off + 13) (Z.lxor (kat key (off + 5)) (kat key (off + 12))) key in
            let key := upd (off + 14) (Z.lxor (kat key (off + 6)) (kat key (off + 13))) key in
            upd (off + 15) (Z.lxor (kat key (off + 7)) (kat key (off + 14))) key
          else key.
  Lemma expand_step : forall f off rc key, expand_key (S f) nk off rc key =
    if (off + nk + 4 =? length (half off rc key))%nat then Some (half off rc key)
    else expand_key f nk (off + nk) (tl rc) (rest off (half off rc key)).
  Proof. reflexivity. Qed.

  Lemma fill_copy : forall q j key, (0 < j < nk)%nat -> (nk * (q + 1) + j < nk + m)%nat -> (nk = 8 -> j <> 4)%nat ->
    filled (nk * (q + 1) + j) key ->
    filled (nk * (q + 1) + S j) (upd (nk * (q + 1) + j) (Z.lxor (kat key (nk * q + j)) (kat key (nk * (q + 1) + j - 1))) key).
  Proof.
    intros q j key Hj Hm H4 F. replace (nk * (q + 1) + S j)%nat with (S (nk * (q + 1) + j)) by lia.
    apply fill_step; [auto|lia|]. rewrite !(proj2 F) by lia. symmetry. apply val_copy; auto.
  Qed.

  Lemma half_filled : forall q key, (nk * (q + 1) + 4 <= nk + m)%nat -> (q < 10)%nat ->
    filled (nk * (q + 1)) key -> filled (nk * (q + 1) + 4) (half (nk * q) (skipn q rcon) key).
  Proof.
    intros q key Hm Hq F. unfold half. cbv zeta.
    replace (nk * q + nk)%nat with (nk * (q + 1))%nat by lia.
    match goal with |- context [upd (nk * (q + 1)) ?v key] => set (k1 := upd (nk * (q + 1)) v key) end.
    assert (F1 : filled (nk * (q + 1) + 1) k1).
    { replace (nk * (q + 1) + 1)%nat with (S (nk * (q + 1))) by lia. apply fill_step; [auto|lia|].
      rewrite !(proj2 F) by lia. symmetry. apply val_0; lia. }
    pose proof (fill_copy q 1 k1 ltac:(lia) ltac:(lia) ltac:(lia) F1) as F2.
    replace (nk * (q + 1) + 1 - 1)%nat with (nk * (q + 1))%nat in F2 by lia.
    set (k2 := upd (nk * (q + 1) + 1) _ k1) in *.
    pose proof (fill_copy q 2 k2 ltac:(lia) ltac:(lia) ltac:(lia) F2) as F3.
    replace (nk * (q + 1) + 2 - 1)%nat with (nk * (q + 1) + 1)%nat in F3 by lia.
    set (k3 := upd (nk * (q + 1) + 2) _ k2) in *.
    pose proof (fill_copy q 3 k3 ltac:(lia) ltac:(lia) ltac:(lia) F3) as F4.
    replace (nk * (q + 1) + 3 - 1)%nat with (nk * (q + 1) + 2)%nat in F4 by lia. exact F4.
  Qed.

  Lemma rest_filled : forall q key, (nk * (q + 2) <= nk + m)%nat ->
    filled (nk * (q + 1) + 4) key -> filled (nk * (q + 2)) (rest (nk * q) key).
  Proof.
    intros q key Hm F. unfold rest. destruct Hnk as [E|[E|E]]; destruct (Nat.eqb_spec nk 6); try lia;
      try (destruct (Nat.eqb_spec nk 8); try lia).
    - replace (nk * (q + 2))%nat with (nk * (q + 1) + 4)%nat by lia. auto.
    - pose proof (fill_copy q 4 key ltac:(lia) ltac:(lia) ltac:(lia) F) as F5.
      replace (nk * (q + 1) + 4 - 1)%nat with (nk * q + 9)%nat in F5 by lia.
      replace (nk * (q + 1) + 4)%nat with (nk * q + 10)%nat in F5 by lia.
      cbv zeta. set (k5 := upd (nk * q + 10) _ key) in *.
      pose proof (fill_copy q 5 k5 ltac:(lia) ltac:(lia) ltac:(lia) F5) as F6.
      replace (nk * (q + 1) + 5 - 1)%nat with (nk * q + 10)%nat in F6 by lia.
      replace (nk * (q + 1) + 5)%nat with (nk * q + 11)%nat in F6 by lia.
      replace (nk * (q + 2))%nat with (nk * (q + 1) + 6)%nat by lia. exact F6.
    - cbv zeta.
      match goal with |- context [upd (nk * q + 12) ?v key] => set (k5 := upd (nk * q + 12) v key) end.
      assert (F5 : filled (nk * (q + 1) + 5) k5).
      { unfold k5. replace (nk * q + 12)%nat with (nk * (q + 1) + 4)%nat by lia.
        replace (nk * (q + 1) + 5)%nat with (S (nk * (q + 1) + 4)) by lia. apply fill_step; [auto|lia|].
        rewrite !(proj2 F) by lia. replace (nk * q + 11)%nat with (nk * (q + 1) + 3)%nat by lia.
        symmetry. apply val_4; lia. }
      pose proof (fill_copy q 5 k5 ltac:(lia) ltac:(lia) ltac:(lia) F5) as F6.
      replace (nk * (q + 1) + 5 - 1)%nat with (nk * q + 12)%nat in F6 by lia.
      replace (nk * (q + 1) + 5)%nat with (nk * q + 13)%nat in F6 by lia.
      set (k6 := upd (nk * q + 13) _ k5) in *.
      pose proof (fill_copy q 6 k6 ltac:(lia) ltac:(lia) ltac:(lia) F6) as F7.
      replace (nk * (q + 1) + 6 - 1)%nat with (nk * q + 13)%nat in F7 by lia.
      replace (nk * (q + 1) + 6)%nat with (nk * q + 14)%nat in F7 by lia.
      set (k7 := upd (nk * q + 14) _ k6) in *.
      pose proof (fill_copy q 7 k7 ltac:(lia) ltac:(lia) ltac:(lia) F7) as F8.
      replace (nk * (q + 1) + 7 - 1)%nat with (nk * q + 14)%nat in F8 by lia.
      replace (nk * (q + 1) + 7)%nat with (nk * q + 15)%nat in F8 by lia.
      replace (nk * (q + 2))%nat with (nk * (q + 1) + 8)%nat by lia. exact F8.
  Qed.

  (** The loop stops when the array is full: after [t] more turns. *)
  Lemma expand_run : forall t q f key, (nk * (q + t + 1) + 4 = nk + m)%nat -> (q + t < 10)%nat ->
    filled (nk * (q + 1)) key -> (t < f)%nat ->
    exists rk, expand_key f nk (nk * q) (skipn q rcon) key = Some rk /\ filled (nk + m) rk.
  Proof.
    induction t; intros q f key Hm Hq F Hf; (destruct f as [|f]; [lia|]); rewrite expand_step.
    - pose proof (half_filled q key ltac:(lia) ltac:(lia) F) as F4.
      rewrite (proj1 F4). replace (nk * q + nk + 4)%nat with (nk + m)%nat by lia. rewrite Nat.eqb_refl.
      eexists. split; [reflexivity|]. replace (nk + m)%nat with (nk * (q + 1) + 4)%nat by lia. auto.
    - assert (G : (nk * (q + 2) + 4 <= nk + m)%nat) by nia.
      pose proof (half_filled q key ltac:(lia) ltac:(lia) F) as F4.
      rewrite (proj1 F4). destruct (Nat.eqb_spec (nk * q + nk + 4) (nk + m)); [lia|].
      replace (nk * q + nk)%nat with (nk * (q + 1))%nat by lia.
      assert (T : tl (skipn q rcon) = skipn (q + 1) rcon).
      { clear. generalize rcon. induction q; intros l; destruct l; cbn; auto. }
      rewrite T. apply IHt; [lia|lia| |lia].
      replace (q + 1 + 1)%nat with (q + 2)%nat by lia. apply rest_filled; [lia|]. auto.
  Qed.

  Lemma filled_all : forall rk, filled (nk + m) rk -> rk = map be_val Wd.
  Proof.
    intros rk [L H]. apply nth_ext with (d := 0) (d' := be_val []).
    - rewrite map_length. unfold Wd. rewrite (proj1 (grow_inv m)). auto.
    - intros i Hi. rewrite map_nth. apply H. lia.
  Qed.
End Expansion.

(* ------------------------------------------------------------------ *)
(** ** The schedule in the code *)

Lemma groups_spec : forall n k s, length (groups n k s) = k.
Proof. induction k; intros; cbn [groups length]; auto. Qed.
Lemma groups_w4b : forall k s, bytes s -> length s = (4 * k)%nat -> Forall w4b (groups 4 k s).
Proof.
  induction k; intros s B L; cbn [groups]; [apply Forall_nil|]. apply Forall_cons.
  - split; [apply bytes_firstn; auto|]. rewrite firstn_length. lia.
  - apply IHk; [apply bytes_skipn; auto|]. rewrite skipn_length. lia.
Qed.
Lemma get_block_groups : forall k s, get_block true 4 k s = map be_val (groups 4 k s).
Proof. induction k; intros; cbn [get_block groups map]; auto. rewrite IHk. reflexivity. Qed.

Lemma nk_cases : forall key, aes_key key ->
  let nk := Nat.div (length key) 4 in (nk = 4 \/ nk = 6 \/ nk = 8)%nat /\ length key = (4 * nk)%nat.
Proof. intros key [_ [H|[H|H]]]; rewrite H; cbn; lia. Qed.

Lemma schedule_spec : forall key, aes_key key -> aes_schedule key = Some (map be_val (key_expansion key)).
Proof.
  intros key HK. destruct (nk_cases key HK) as [Hnk L]. destruct HK as [B _].
  unfold aes_schedule, aes_rounds, key_expansion. set (nk := Nat.div (length key) 4) in *. clearbody nk.
  assert (H0 : length (groups 4 nk key) = nk /\ Forall w4b (groups 4 nk key)).
  { split; [apply groups_spec|apply groups_w4b; auto]. }
  unfold get_user_key. replace (nk * 4 - length key)%nat with 0%nat by lia. cbn [repeat]. rewrite app_nil_r.
  rewrite get_block_groups.
  pose (m := (4 * (nk + 7) - nk)%nat).
  assert (F : filled nk (groups 4 nk key) m (nk * (0 + 1)) (map be_val (groups 4 nk key) ++ repeat 0 (4 * (nk + 6 + 1) - nk))).
  { split.
    - rewrite app_length, map_length, repeat_length, groups_spec. unfold m. lia.
    - intros i Hi. unfold kat. rewrite app_nth1 by (rewrite map_length, groups_spec; lia).
      rewrite (nth_indep _ 0 (be_val [])) by (rewrite map_length, groups_spec; lia). rewrite map_nth. f_equal.
      symmetry. apply (grow_nth nk (groups 4 nk key) Hnk H0 0 m); lia. }
  assert (R : exists rk, expand_key 20 nk (nk * 0) (skipn 0 rcon)
    (map be_val (groups 4 nk key) ++ repeat 0 (4 * (nk + 6 + 1) - nk)) = Some rk /\
    filled nk (groups 4 nk key) m (nk + m) rk).
  { pose proof Hnk as Hnk'. destruct Hnk as [E|[E|E]].
    - apply (expand_run nk _ Hnk' H0 m 9); unfold m; try lia. auto.
    - apply (expand_run nk _ Hnk' H0 m 7); unfold m; try lia. auto.
    - apply (expand_run nk _ Hnk' H0 m 6); unfold m; try lia. auto. }
  destruct R as (rk & R & Fr). rewrite Nat.mul_0_r in R. cbn [skipn] in R. rewrite R. f_equal. apply filled_all in Fr; auto.
Qed.

Lemma key_expansion_inv : forall key, aes_key key ->
  length (key_expansion key) = (4 * (aes_rounds key + 1))%nat /\ Forall w4b (key_expansion key).
Proof.
  intros key HK. destruct (nk_cases key HK) as [Hnk L]. destruct HK as [B _].
  unfold aes_rounds, key_expansion. set (nk := Nat.div (length key) 4) in *. clearbody nk.
  assert (H0 : length (groups 4 nk key) = nk /\ Forall w4b (groups 4 nk key)).
  { split; [apply groups_spec|apply groups_w4b; auto]. }
  destruct (grow_inv nk _ Hnk H0 (4 * (nk + 7) - nk)) as [L' F]. split; auto. rewrite L'. lia.
Qed.

Lemma group_words : forall n w, length w = (4 * n)%nat -> Forall w4b w ->
  flat_map WB (groups 16 n (concat w)) = map be_val w /\ Forall blk (groups 16 n (concat w)).
Proof.
  induction n; intros w L F.
  - destruct w; [|discriminate L]. split; [reflexivity|apply Forall_nil].
  - do 4 (destruct w as [|? w]; [cbn in L; lia|]).
    inversion F as [|? ? H1 F1]; subst. inversion F1 as [|? ? H2 F2]; subst. inversion F2 as [|? ? H3 F3]; subst.
    inversion F3 as [|? ? H4 F4]; subst. destruct (IHn w) as [E G]; [cbn [length] in L; lia|auto|].
    apply w4b_inv in H1, H2, H3, H4.
    destruct H1 as (a0 & a1 & a2 & a3 & -> & (? & ?) & ? & ?). destruct H2 as (b0 & b1 & b2 & b3 & -> & (? & ?) & ? & ?).
    destruct H3 as (c0 & c1 & c2 & c3 & -> & (? & ?) & ? & ?). destruct H4 as (d0 & d1 & d2 & d3 & -> & (? & ?) & ? & ?).
    cbn [concat app groups firstn skipn flat_map map]. split.
    + rewrite E. reflexivity.
    + apply Forall_cons; auto. split; [|reflexivity]. repeat (apply Forall_cons; [assumption|]). apply Forall_nil.
Qed.

(** The round keys: one more than rounds, and the code's words are their words. *)
Lemma round_keys_spec : forall key, aes_key key ->
  aes_schedule key = Some (flat_map WB (round_keys key)) /\ Forall blk (round_keys key) /\
  length (round_keys key) = (aes_rounds key + 1)%nat.
Proof.
  intros key HK. rewrite schedule_spec by auto. destruct (key_expansion_inv key HK) as [L F].
  unfold round_keys, aes_rounds in *. set (nk := Nat.div (length key) 4) in *. clearbody nk.
  destruct (group_words (nk + 7) (key_expansion key)) as [E G]; [lia|auto|].
  rewrite E. split; [reflexivity|]. split; auto. rewrite groups_spec. lia.
Qed.

Lemma bswap_w4 : forall a b c d, byte a -> byte b -> byte c -> byte d -> bswap (w4 a b c d) = w4 d c b a.
Proof.
  intros. unfold bswap. rewrite <- le_w4.
  change 4%nat with (length [d; c; b; a]). rewrite le_bytes_val; [reflexivity|].
  repeat (apply Forall_cons; [assumption|]). apply Forall_nil.
Qed.
Lemma bswap_WB : forall k, blk k -> map bswap (WB k) = WL k.
Proof.
  intros k Hk. explode k Hk. unfold WB, WL. cbn [get_block firstn skipn map word_of]. rewrite !le_w4.
  repeat match goal with |- context [be_val [?a; ?b; ?c; ?d]] => change (be_val [a; b; c; d]) with (w4 a b c d) end.
  rewrite !bswap_w4 by assumption. reflexivity.
Qed.

(** A list of keys with its two ends and the first inner key in view. *)
Lemma ends : forall (ks : list (list Z)) r, length ks = (2 * (r + 1) + 3)%nat ->
  exists k0 k1 mids kl, ks = k0 :: (k1 :: mids) ++ [kl] /\ length mids = (2 * (r + 1))%nat.
Proof.
  intros ks r L. destruct ks as [|k0 ks]; [cbn in L; lia|]. destruct ks as [|k1 ks]; [cbn in L; lia|].
  destruct (@exists_last _ ks) as (mids & kl & ->). { intros ->. cbn in L; lia. }
  exists k0, k1, mids, kl. split; [reflexivity|]. cbn [length] in L. rewrite app_length in L. cbn in L. lia.
Qed.

Lemma reverse_ends_spec : forall k0 mids kl, blk k0 -> blk kl ->
  reverse_ends (length mids + 1) (flat_map WB (k0 :: mids ++ [kl])) = WL k0 ++ flat_map WB mids ++ WL kl.
Proof.
  intros k0 mids kl H0 Hl. unfold reverse_ends. rewrite <- !bswap_WB by auto. cbn [flat_map].
  rewrite flat_map_app. cbn [flat_map]. rewrite app_nil_r.
  assert (E1 : firstn 4 (WB k0 ++ flat_map WB mids ++ WB kl) = WB k0) by reflexivity.
  assert (E2 : skipn 4 (WB k0 ++ flat_map WB mids ++ WB kl) = flat_map WB mids ++ WB kl) by reflexivity.
  assert (E3 : firstn (4 * (length mids + 1) - 4) (flat_map WB mids ++ WB kl) = flat_map WB mids).
  { replace (4 * (length mids + 1) - 4)%nat with (length (flat_map WB mids)) by (rewrite flat_WB_length; lia).
    apply firstn_app_exact. }
  assert (E4 : skipn (4 * (length mids + 1)) (WB k0 ++ flat_map WB mids ++ WB kl) = WB kl).
  { replace (4 * (length mids + 1))%nat with (length (WB k0 ++ flat_map WB mids))
      by (rewrite app_length, flat_WB_length, WB_length; lia).
    rewrite app_assoc. apply skipn_app_exact. }
  rewrite E1, E2, E3, E4. reflexivity.
Qed.

(* ------------------------------------------------------------------ *)
(** ** The keys of the decryption object *)

Definition dec_keys (r : nat) (rk : list Z) : option (list Z) :=
      match mix_keys 20 4 (4 * r - 4) rk with
      | None => None
      | Some (i, rk) =>
          let rk := upd i (inverse_mix_column (kat rk i)) rk in
          let rk := upd (i + 1) (inverse_mix_column (kat rk (i + 1))) rk in
          let rk := upd (i + 2) (inverse_mix_column (kat rk (i + 2))) rk in
          let rk := upd (i + 3) (inverse_mix_column (kat rk (i + 3))) rk in
          Some (swap_four bswap 0 (4 * r) rk)
      end.
Definition dec_order (ks : list (list Z)) : list Z :=
  map bswap (last ks []) ++ flat_map (map inverse_mix_column) (rev (removelast (tl ks))) ++ map bswap (hd [] ks).

Ltac words ws H F :=
  match type of F with
  | Forall _ ?l => is_var l; destruct l as [|w ws]; [discriminate H|]
  end.
Lemma four_list : forall w : list Z, length w = 4%nat -> exists a b c d, w = [a; b; c; d].
Proof. intros w L. do 4 (destruct w as [|? w]; [discriminate L|]). destruct w; [|discriminate L]. eauto. Qed.

Ltac all_words ks H F :=
  repeat (destruct ks as [|?w ks]; [try discriminate H|try discriminate H]);
  repeat match goal with X : Forall _ (_ :: _) |- _ => inversion X; subst; clear X end;
  repeat match goal with X : length ?w = 4%nat |- _ => is_var w; apply four_list in X; destruct X as (? & ? & ? & ? & ->) end.

Lemma dec_keys_10 : forall ks, length ks = 11%nat -> Forall (fun w => length w = 4%nat) ks ->
  dec_keys 10 (concat ks) = Some (dec_order ks).
Proof.
  intros ks L F. all_words ks L F. cbv -[inverse_mix_column bswap]. reflexivity.
Qed.
Lemma dec_keys_12 : forall ks, length ks = 13%nat -> Forall (fun w => length w = 4%nat) ks ->
  dec_keys 12 (concat ks) = Some (dec_order ks).
Proof.
  intros ks L F. all_words ks L F. cbv -[inverse_mix_column bswap]. reflexivity.
Qed.
Lemma dec_keys_14 : forall ks, length ks = 15%nat -> Forall (fun w => length w = 4%nat) ks ->
  dec_keys 14 (concat ks) = Some (dec_order ks).
Proof.
  intros ks L F. all_words ks L F. cbv -[inverse_mix_column bswap]. reflexivity.
Qed.

Lemma imc_w4 : forall a b c d, byte a -> byte b -> byte c -> byte d ->
  inverse_mix_column (w4 a b c d) =
  w4 (Z.lxor (Z.lxor (Z.lxor (me a) (mb b)) (md c)) (m9 d)) (Z.lxor (Z.lxor (Z.lxor (m9 a) (me b)) (mb c)) (md d))
     (Z.lxor (Z.lxor (Z.lxor (md a) (m9 b)) (me c)) (mb d)) (Z.lxor (Z.lxor (Z.lxor (mb a) (md b)) (m9 c)) (me d)).
Proof.
  intros. unfold inverse_mix_column. rewrite getbyte_0, getbyte_1, getbyte_2, getbyte_3 by auto.
  change (tl_m Td) with (t_at Td). rewrite td0, td1, td2, td3 by (auto with aes).
  rewrite !inv_sbox_sd by (auto with aes). rewrite !sd_se by auto.
  rewrite !w4_lxor by auto 7 with aes. reflexivity.
Qed.
Lemma imc_WB : forall k, blk k -> map inverse_mix_column (WB k) = WB (inv_mix_columns k).
Proof.
  intros k Hk. explode k Hk. unfold WB. cbn [get_block firstn skipn map word_of].
  repeat match goal with |- context [be_val [?a; ?b; ?c; ?d]] => change (be_val [a; b; c; d]) with (w4 a b c d) end.
  rewrite !imc_w4 by assumption. flat. cbn [get_block firstn skipn map word_of].
  repeat match goal with |- context [be_val [?a; ?b; ?c; ?d]] => change (be_val [a; b; c; d]) with (w4 a b c d) end.
  unfold m9, mb, md, me. list_eq; apply w4_cong; xor_solve.
Qed.
