(** BTEA: decryption undoes encryption for every block of at least two words. *)
From Coq Require Import ZArith List Bool Arith Lia.
From Verif Require Import Base CipherModel CipherSpec CipherProofs.
Import ListNotations.
Local Open Scope Z_scope.

Section Btea.
  Variable k : list Z.
  Variable n : nat.
  Hypothesis Hn : (2 <= n)%nat.
  Local Notation W := (word 32).

  Definition nxt (p : nat) : nat := if (p =? n - 1)%nat then 0%nat else (p + 1)%nat.
  Definition prv (p : nat) : nat := match p with O => (n - 1)%nat | S p' => p' end.
  Definition bmx (sum : Z) (v : list Z) (p : nat) : Z :=
    btea_mx k sum (btea_e sum) p (nth (nxt p) v 0) (nth (prv p) v 0).
  Definition bstep (sum : Z) (v : list Z) (p : nat) : list Z := upd p (wadd 32 (nth p v 0) (bmx sum v p)) v.
  Definition bunstep (sum : Z) (v : list Z) (p : nat) : list Z := upd p (wsub 32 (nth p v 0) (bmx sum v p)) v.
  Definition ok (v : list Z) : Prop := Forall W v /\ length v = n.

  Lemma upd_words : forall p x v, W x -> Forall W v -> Forall W (upd p x v).
  Proof.
    induction p; intros x v Hx Hv; destruct v; cbn [upd]; auto; inversion Hv; subst; constructor; auto.
  Qed.
  Lemma upd_twice : forall p (x y : Z) v, upd p y (upd p x v) = upd p y v.
  Proof. induction p; intros; destruct v; cbn [upd]; auto. f_equal; auto. Qed.
  Lemma upd_self : forall p (v : list Z), upd p (nth p v 0) v = v.
  Proof. induction p; intros; destruct v; cbn [upd nth]; auto. f_equal; auto. Qed.
  Lemma bmx_upd : forall sum x v p, (p < n)%nat -> bmx sum (upd p x v) p = bmx sum v p.
  Proof.
    intros sum x v p Hp. unfold bmx. rewrite !upd_nth_neq; auto.
    - unfold prv. destruct p; lia.
    - unfold nxt. destruct (Nat.eqb_spec p (n - 1)); lia.
  Qed.
  Lemma bstep_ok : forall sum v p, ok v -> ok (bstep sum v p).
  Proof.
    intros sum v p [H1 H2]. split; [apply upd_words; auto; apply add_w|]. unfold bstep. rewrite upd_length. auto.
  Qed.
  Lemma bunstep_ok : forall sum v p, ok v -> ok (bunstep sum v p).
  Proof.
    intros sum v p [H1 H2]. split; [apply upd_words; auto; apply sub_w|]. unfold bunstep. rewrite upd_length. auto.
  Qed.
  Lemma bunstep_bstep : forall sum v p, (p < n)%nat -> ok v -> bunstep sum (bstep sum v p) p = v.
  Proof.
    intros sum v p Hp [H1 H2]. unfold bstep, bunstep. rewrite bmx_upd, upd_twice, upd_nth_eq by lia.
    rewrite sub_add by (apply nth_word0; auto; lia). apply upd_self.
  Qed.
  Lemma bstep_bunstep : forall sum v p, (p < n)%nat -> ok v -> bstep sum (bunstep sum v p) p = v.
  Proof.
    intros sum v p Hp [H1 H2]. unfold bstep, bunstep. rewrite bmx_upd, upd_twice, upd_nth_eq by lia.
    rewrite add_sub by (apply nth_word0; auto; lia). apply upd_self.
  Qed.

  (** rounds_undone for lists of places below n *)
  Lemma steps_undone : forall (f g : list Z -> nat -> list Z),
    (forall v p, ok v -> ok (f v p)) -> (forall v p, (p < n)%nat -> ok v -> g (f v p) p = v) ->
    forall l v, Forall (fun p => (p < n)%nat) l -> ok v ->
      ok (fold_left f l v) /\ fold_left g (rev l) (fold_left f l v) = v.
  Proof.
    intros f g Hf Hg. induction l as [|p l IH]; intros v F Hv; cbn [fold_left rev]; auto.
    inversion F; subst. destruct (IH (f v p)) as [H3 H4]; auto. split; auto.
    rewrite fold_left_app, H4. cbn [fold_left]. auto.
  Qed.
  Definition cyc (sum : Z) (v : list Z) : list Z := fold_left (bstep sum) (seq 0 n) v.
  Definition uncyc (sum : Z) (v : list Z) : list Z := fold_left (bunstep sum) (rev (seq 0 n)) v.
  Lemma seq_below : Forall (fun p => (p < n)%nat) (seq 0 n).
  Proof. apply Forall_forall. intros p Hp. apply in_seq in Hp. lia. Qed.
  Lemma cyc_ok : forall sum v, ok v -> ok (cyc sum v) /\ uncyc sum (cyc sum v) = v.
  Proof.
    intros. unfold cyc, uncyc. apply steps_undone; auto using seq_below, bstep_ok, bunstep_bstep.
  Qed.
  Lemma uncyc_ok : forall sum v, ok v -> ok (uncyc sum v) /\ cyc sum (uncyc sum v) = v.
  Proof.
    intros. unfold cyc, uncyc. rewrite <- (rev_involutive (seq 0 n)) at 2.
    apply steps_undone; auto using bunstep_ok, bstep_bunstep. apply Forall_rev. apply seq_below.
  Qed.

  (** The loops of the code are these cycles. *)
  Lemma btea_up_eq : forall sum m p v z, (p + m <= n - 1)%nat -> length v = n -> z = nth (prv p) v 0 ->
    btea_up k sum m p v z =
    (fold_left (bstep sum) (seq p m) v, nth (prv (p + m)) (fold_left (bstep sum) (seq p m) v) 0).
  Proof.
    intros sum. induction m as [|m IH]; intros p v z L Lv Hz; cbn [btea_up seq fold_left].
    - rewrite Nat.add_0_r, Hz. reflexivity.
    - assert (E : upd p (wadd 32 (nth p v 0) (btea_mx k sum (btea_e sum) p (nth (p + 1) v 0) z)) v = bstep sum v p).
      { unfold bstep, bmx, nxt. rewrite Hz. destruct (Nat.eqb_spec p (n - 1)); [lia|]. reflexivity. }
      rewrite E, IH.
      + rewrite (Nat.add_1_r p), Nat.add_succ_r. reflexivity.
      + lia.
      + unfold bstep. rewrite upd_length. auto.
      + rewrite Nat.add_1_r. cbn [prv]. unfold bstep. rewrite upd_nth_eq by lia. unfold bmx, nxt.
        destruct (Nat.eqb_spec p (n - 1)); [lia|]. rewrite Hz, (Nat.add_1_r p). reflexivity.
  Qed.
  Lemma btea_enc_eq : forall q i v z, length v = n -> z = nth (n - 1) v 0 ->
    btea_enc_loop q k n (tsum i) v z = fold_left (fun v j => cyc (tsum (i + 1 + Z.of_nat j)) v) (seq 0 q) v.
  Proof.
    induction q as [|q IH]; intros i v z Lv Hz; cbn [btea_enc_loop fold_left seq]; auto.
    rewrite tsum_add. rewrite (btea_up_eq (tsum (i + 1)) (n - 1) 0 v z) by (auto; lia).
    set (v1 := fold_left (bstep (tsum (i + 1))) (seq 0 (n - 1)) v).
    assert (L1 : length v1 = n).
    { unfold v1. clear - Lv. revert v Lv. induction (seq 0 (n - 1)); intros v Lv; cbn [fold_left]; auto.
      apply IHl. unfold bstep. rewrite upd_length. auto. }
    assert (E : upd (n - 1) (wadd 32 (nth (n - 1) v1 0)
                  (btea_mx k (tsum (i + 1)) (btea_e (tsum (i + 1))) (n - 1) (nth 0 v1 0) (nth (prv (0 + (n - 1))) v1 0))) v1
                = cyc (tsum (i + 1)) v).
    { unfold cyc. replace (seq 0 n) with (seq 0 (n - 1) ++ [n - 1])%nat.
      - rewrite fold_left_app. fold v1. cbn [fold_left]. unfold bstep, bmx, nxt. rewrite Nat.eqb_refl. reflexivity.
      - replace n with (S (n - 1)) at 3 by lia. rewrite seq_S. reflexivity. }
    rewrite E, IH.
    - rewrite <- seq_shift, fold_left_map. change (Z.of_nat 0) with 0. rewrite Z.add_0_r.
      apply fold_left_ext_in. intros a j _. f_equal. f_equal. lia.
    - rewrite <- E, upd_length. auto.
    - rewrite <- E, upd_nth_eq by lia. reflexivity.
  Qed.
  Lemma btea_down_eq : forall sum p v y, (p <= n - 1)%nat -> length v = n -> y = nth (nxt p) v 0 ->
    btea_down k sum p v y =
    (fold_left (bunstep sum) (rev (seq 1 p)) v, nth 1 (fold_left (bunstep sum) (rev (seq 1 p)) v) 0).
  Proof.
    intros sum. induction p as [|p IH]; intros v y L Lv Hy; cbn [btea_down].
    - cbn [seq rev fold_left]. rewrite Hy. unfold nxt. destruct (Nat.eqb_spec 0 (n - 1)); [lia|]. reflexivity.
    - rewrite seq_S, rev_app_distr. cbn [rev app fold_left Nat.add].
      assert (E : upd (S p) (wsub 32 (nth (S p) v 0) (btea_mx k sum (btea_e sum) (S p) y (nth p v 0))) v = bunstep sum v (S p)).
      { unfold bunstep, bmx. rewrite Hy. reflexivity. }
      rewrite E. apply IH.
      + lia.
      + unfold bunstep. rewrite upd_length. auto.
      + unfold bunstep, nxt. destruct (Nat.eqb_spec p (n - 1)); [lia|]. rewrite (Nat.add_1_r p).
        rewrite upd_nth_eq by lia. unfold bmx. rewrite Hy. reflexivity.
  Qed.
  Lemma btea_dec_eq : forall q v y, Z.of_nat q < 2 ^ 32 -> length v = n -> y = nth 0 v 0 ->
    btea_dec_loop q k n (tsum (Z.of_nat q)) v y =
    Some (fold_left (fun v j => uncyc (tsum (0 + 1 + Z.of_nat j)) v) (rev (seq 0 q)) v).
  Proof.
    induction q as [|q IH]; intros v y Lq Lv Hy.
    - reflexivity.
    - cbn [btea_dec_loop]. replace (Z.of_nat (S q)) with (Z.of_nat q + 1) by lia.
      destruct (Z.eqb_spec (tsum (Z.of_nat q + 1)) 0) as [C|_].
      + change 0 with (tsum 0) in C. apply tsum_inj in C; lia.
      + rewrite tsum_sub. set (sum := tsum (Z.of_nat q + 1)).
        rewrite (btea_down_eq sum (n - 1) v y); auto.
        2: { unfold nxt. rewrite Nat.eqb_refl. auto. }
        set (v1 := fold_left (bunstep sum) (rev (seq 1 (n - 1))) v).
        assert (L1 : length v1 = n).
        { unfold v1. clear - Lv. revert v Lv. induction (rev (seq 1 (n - 1))); intros v Lv; cbn [fold_left]; auto.
          apply IHl. unfold bunstep. rewrite upd_length. auto. }
        assert (E : upd 0 (wsub 32 (nth 0 v1 0) (btea_mx k sum (btea_e sum) 0 (nth 1 v1 0) (nth (n - 1) v1 0))) v1
                    = uncyc sum v).
        { unfold uncyc. replace (seq 0 n) with (0 :: seq 1 (n - 1))%nat.
          - cbn [rev]. rewrite fold_left_app. fold v1. cbn [fold_left]. unfold bunstep, bmx, nxt.
            destruct (Nat.eqb_spec 0 (n - 1)); [lia|]. reflexivity.
          - replace n with (S (n - 1)) at 2 by lia. reflexivity. }
        rewrite E, IH.
        * rewrite seq_S, rev_app_distr. cbn [rev app fold_left Nat.add]. unfold sum.
          replace (0 + 1 + Z.of_nat q) with (Z.of_nat q + 1) by lia. reflexivity.
        * lia.
        * rewrite <- E, upd_length. auto.
        * rewrite <- E, upd_nth_eq by lia. reflexivity.
  Qed.

  Lemma btea_q_small : Z.of_nat (btea_q n) < 2 ^ 32.
  Proof.
    unfold btea_q. assert (52 / n <= 26)%nat by (apply Nat.div_le_upper_bound; lia). lia.
  Qed.
End Btea.

Lemma btea_undoes : forall key n, (2 <= n)%nat ->
  undoes (n * 4) (btea_enc key n) (btea_dec key n) /\ undoes (n * 4) (btea_dec key n) (btea_enc key n).
Proof.
  intros key n Hn. pose proof (btea_q_small n Hn) as Q. set (k := tea_key key).
  assert (EE : forall v, length v = n -> btea_enc_loop (btea_q n) k n 0 v (nth (n - 1) v 0) =
    fold_left (fun v j => cyc k n (tsum (0 + 1 + Z.of_nat j)) v) (seq 0 (btea_q n)) v).
  { intros v L. change 0 with (tsum 0) at 1. apply btea_enc_eq; auto. }
  assert (ED : forall v, length v = n ->
    btea_dec_loop (btea_q n) k n (wmul 32 (Z.of_nat (btea_q n)) DELTA) v (nth 0 v 0) =
    Some (fold_left (fun v j => uncyc k n (tsum (0 + 1 + Z.of_nat j)) v) (rev (seq 0 (btea_q n))) v)).
  { intros v L. apply btea_dec_eq; auto. }
  split.
  - intros b Hb L.
    apply (process_undoes true 4 ltac:(lia) n
             (fun v => Some (btea_enc_loop (btea_q n) k n 0 v (nth (n - 1) v 0)))
             (fun v => btea_dec_loop (btea_q n) k n (wmul 32 (Z.of_nat (btea_q n)) DELTA) v (nth 0 v 0))); auto.
    change (8 * Z.of_nat 4) with 32. intros ws F Lw. rewrite EE by auto.
    destruct (rounds_undone _ _ (ok n) (fun v j => cyc k n (tsum (0 + 1 + Z.of_nat j)) v)
                (fun v j => uncyc k n (tsum (0 + 1 + Z.of_nat j)) v)
                (fun a b => cyc_ok k n Hn (tsum (0 + 1 + Z.of_nat b)) a) (seq 0 (btea_q n)) ws) as [[H1 H2] H3]; [split; auto|].
    eexists. split; [reflexivity|]. split; [exact H1|]. split; [exact H2|]. rewrite ED, H3 by auto. reflexivity.
  - intros b Hb L.
    apply (process_undoes true 4 ltac:(lia) n
             (fun v => btea_dec_loop (btea_q n) k n (wmul 32 (Z.of_nat (btea_q n)) DELTA) v (nth 0 v 0))
             (fun v => Some (btea_enc_loop (btea_q n) k n 0 v (nth (n - 1) v 0)))); auto.
    change (8 * Z.of_nat 4) with 32. intros ws F Lw. rewrite ED by auto.
    destruct (rounds_undone _ _ (ok n) (fun v j => uncyc k n (tsum (0 + 1 + Z.of_nat j)) v)
                (fun v j => cyc k n (tsum (0 + 1 + Z.of_nat j)) v)
                (fun a b => uncyc_ok k n Hn (tsum (0 + 1 + Z.of_nat b)) a) (rev (seq 0 (btea_q n))) ws) as [[H1 H2] H3]; [split; auto|].
    rewrite rev_involutive in H3.
    eexists. split; [reflexivity|]. split; [exact H1|]. split; [exact H2|]. rewrite EE, H3 by auto. reflexivity.
Qed.
