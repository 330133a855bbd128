(** The block modes: AdvancedProcessBlocks loops, ECB, CBC, ciphertext stealing, CFB, OFB, CTR. *)
From Coq Require Import ZArith List Bool Arith Lia.
From Verif Require Import Base Blocks Mem ModesModel ModesSpec.
Import ListNotations.
Local Open Scope Z_scope.

Lemma xorl_block : forall bs a b, block_ok bs a -> block_ok bs b -> block_ok bs (xorl a b).
Proof. intros bs a b [A1 A2] [B1 B2]. split; [rewrite xorl_length; lia|apply xorl_bytes; auto]. Qed.
Definition zpad (bs : nat) (l : list Z) : list Z := l ++ repeat 0 (bs - length l).
Lemma zpad_ok : forall bs l, bytes l -> (length l <= bs)%nat -> block_ok bs (zpad bs l).
Proof.
  intros bs l Hb Hl. unfold zpad. split; [rewrite app_length, repeat_length; lia|]. apply bytes_app; split; auto.
  apply Forall_repeat. unfold byte; lia.
Qed.

Lemma skipn_cons_nth : forall (l : list Z) k, (k < length l)%nat -> skipn k l = nth k l 0 :: skipn (S k) l.
Proof. induction l as [|a l IH]; intros k H; cbn [length] in H; [lia|]. destruct k; [reflexivity|]. cbn [skipn nth]. apply IH. lia. Qed.
Section Loops.
  Variable E : list Z -> list Z.
  Variable bs : nat.
  Hypothesis Hbs : bs <> 0%nat.
  Hypothesis HE : cipher_ok bs E.
  Notation B := (Z.of_nat bs).

  Lemma E_len : forall b, block_ok bs b -> length (E b) = bs.
  Proof. intros; apply HE; auto. Qed.
  Lemma load_block : forall m a, mem_ok m -> block_ok bs (load m a bs).
  Proof. intros. split; [apply load_length|apply load_bytes; auto]. Qed.

  (** Blocks of a memory area *)
  Definition blk (m : mem) (a : Z) (j : nat) : list Z := load m (a + Z.of_nat (j * bs)) bs.
  Lemma blocks_load : forall n m a, blocks bs (load m a (n * bs)) = map (blk m a) (seq 0 n).
  Proof.
    induction n as [|n IH]; intros m a; [apply blocks_nil; auto|]. cbn [Nat.mul seq map].
    rewrite load_app, blocks_app_block by (rewrite ?load_length; auto). f_equal.
    - unfold blk. cbn [Nat.mul Z.of_nat]. rewrite Z.add_0_r. reflexivity.
    - rewrite IH, <- seq_shift, map_map. apply map_ext. intros j. unfold blk. f_equal. cbn [Nat.mul]. lia.
  Qed.
  Lemma load_blocks : forall n m a, load m a (n * bs) = concat (map (blk m a) (seq 0 n)).
  Proof.
    intros. rewrite <- blocks_load. rewrite (blocks_rest bs (load m a (n * bs)) Hbs) at 1.
    rewrite rest_mult, app_nil_r by (auto; rewrite load_length; apply Nat.mod_mul; auto). reflexivity.
  Qed.
  Lemma blocks_load_S : forall n m a, blocks bs (load m a (S n * bs)) = load m a bs :: blocks bs (load m (a + B) (n * bs)).
  Proof. intros. cbn [Nat.mul]. rewrite load_app, blocks_app_block by (rewrite ?load_length; auto). reflexivity. Qed.
  Lemma load_S : forall n m a, load m a (S n * bs) = load m a bs ++ load m (a + B) (n * bs).
  Proof. intros. cbn [Nat.mul]. apply load_app. Qed.
  Lemma load_S_end : forall n m a, load m a (S n * bs) = load m a (n * bs) ++ load m (a + Z.of_nat (n * bs)) bs.
  Proof. intros. replace (S n * bs)%nat with (n * bs + bs)%nat by lia. apply load_app. Qed.

  (** One step of each loop. *)
  Lemma loop_step : forall f m inp xorp out n fl a b c, bt_counter fl = false ->
    apb_loop E bs (S f) m inp xorp out (S n * bs) fl a b c =
    let m1 := if negb (is_null xorp) && bt_xorin fl then
                let m' := store m out (xorl (loadp m xorp bs) (loadp m inp bs)) in store m' out (E (load m' out bs))
              else pax E bs m inp xorp out in
    apb_loop E bs f m1 (padd inp a) (padd xorp b) (out + c) (n * bs) fl a b c.
  Proof.
    intros f m inp xorp out n fl a b c Hc. cbn [apb_loop]. rewrite (proj2 (Nat.leb_le bs (S n * bs))) by (cbn [Nat.mul]; lia). rewrite Hc.
    replace (S n * bs - bs)%nat with (n * bs)%nat by (cbn [Nat.mul]; lia). reflexivity.
  Qed.
  Lemma loop_0 : forall f m inp xorp out fl a b c, apb_loop E bs f m inp xorp out 0 fl a b c = (m, inp, 0%nat).
  Proof. intros. destruct f; cbn [apb_loop]; [reflexivity|]. rewrite (proj2 (Nat.leb_gt bs 0)) by lia. reflexivity. Qed.

  Definition fst3 {A B C} (x : A * B * C) : A := let '(a, _, _) := x in a.

  (** ECB: independent blocks, forwards. *)
  Lemma loop_ecb : forall n f m i o, (n <= f)%nat -> mem_ok m -> regions_ok i o (n * bs) ->
    let m' := fst3 (apb_loop E bs f m (PMem i) PNull o (n * bs) bt0 B 0 B) in
    load m' o (n * bs) = concat (map E (blocks bs (load m i (n * bs)))) /\ same_outside m m' o (n * bs).
  Proof.
    induction n as [|n IH]; intros f m i o Hf Hm Hr.
    - cbv zeta. rewrite loop_0. cbn [fst3 Nat.mul]. rewrite load_0, load_0, blocks_nil by auto. split; [reflexivity|apply same_refl].
    - destruct f as [|f]; [lia|]. rewrite loop_step by reflexivity. cbn [is_null negb andb padd]. change (0 =? 0) with true. cbv iota. cbv zeta.
      set (m1 := pax E bs m (PMem i) PNull o).
      assert (L : block_ok bs (E (load m i bs))) by (apply HE, load_block; auto).
      assert (Hm1 : mem_ok m1) by (apply store_ok; auto; apply L).
      assert (S1 : same_outside m m1 o bs) by (apply store_same_outside'; symmetry; apply L).
      assert (L1 : load m1 o bs = E (load m i bs)) by (apply load_store_same; symmetry; apply L).
      assert (Hr' : regions_ok (i + B) (o + B) (n * bs)) by (unfold regions_ok in *; cbn [Nat.mul] in Hr; lia).
      destruct (IH f m1 (i + B) (o + B) ltac:(lia) Hm1 Hr') as [I1 I2].
      set (m' := fst3 _) in *. split.
      + rewrite load_S, blocks_load_S. cbn [map concat]. f_equal.
        * rewrite <- L1. eapply load_same; [exact I2|]. right. lia.
        * rewrite I1. do 3 f_equal. eapply load_same; [exact S1|]. unfold regions_ok in Hr. unfold disjoint. cbn [Nat.mul] in Hr. lia.
      + eapply same_trans; [eapply same_weaken; [exact S1|lia|cbn [Nat.mul]; lia]|eapply same_weaken; [exact I2|lia|cbn [Nat.mul]; lia]].
  Qed.
  Lemma loop_mem_ok : forall f m i x o len fl a b c, mem_ok m -> bt_counter fl = false -> bt_xorin fl = true \/ True ->
    mem_ok (fst3 (apb_loop E bs f m (PMem i) (PMem x) o len fl a b c)).
  Proof.
    induction f as [|f IH]; intros m i x o len fl a b c Hm Hc _; cbn [apb_loop]; [exact Hm|].
    destruct (Nat.leb bs len); [|exact Hm]. rewrite Hc. cbn [padd is_null negb andb loadp]. apply IH; auto.
    destruct (bt_xorin fl).
    - apply store_ok. { apply store_ok; auto. apply xorl_bytes; apply load_bytes; auto. }
      apply HE, load_block. apply store_ok; auto. apply xorl_bytes; apply load_bytes; auto.
    - apply store_ok; auto. cbn [is_null loadp]. apply xorl_bytes; [apply HE, load_block; auto|apply load_bytes; auto].
  Qed.

  (** CBC encryption: the xor pointer trails the output. *)
  Lemma loop_cbc : forall n f m i o, (n <= f)%nat -> mem_ok m -> regions_ok i (o + B) (n * bs) ->
    let m' := fst3 (apb_loop E bs f m (PMem i) (PMem o) (o + B) (n * bs) bt_xor B B B) in
    load m' (o + B) (n * bs) = concat (cbc_enc_blocks E (load m o bs) (blocks bs (load m i (n * bs)))) /\ same_outside m m' (o + B) (n * bs).
  Proof.
    induction n as [|n IH]; intros f m i o Hf Hm Hr.
    - cbv zeta. rewrite loop_0. cbn [fst3 Nat.mul]. rewrite load_0, load_0, blocks_nil by auto. split; [reflexivity|apply same_refl].
    - destruct f as [|f]; [lia|]. rewrite loop_step by reflexivity. cbn [is_null negb andb padd bt_xorin bt_xor loadp]. cbv zeta.
      set (x := xorl (load m o bs) (load m i bs)).
      assert (Lx : block_ok bs x) by (apply xorl_block; apply load_block; auto).
      rewrite (load_store_same m (o + B) x) by (symmetry; apply Lx).
      set (m0 := store m (o + B) x). set (m1 := store m0 (o + B) (E x)).
      assert (L : block_ok bs (E x)) by (apply HE; auto).
      assert (Hm0 : mem_ok m0) by (apply store_ok; auto; apply Lx).
      assert (Hm1 : mem_ok m1) by (apply store_ok; auto; apply L).
      assert (S1 : same_outside m m1 (o + B) bs).
      { eapply same_trans; [apply store_same_outside'; symmetry; apply Lx|apply store_same_outside'; symmetry; apply L]. }
      assert (L1 : load m1 (o + B) bs = E x) by (apply load_store_same; symmetry; apply L).
      assert (Hr' : regions_ok (i + B) (o + B + B) (n * bs)) by (unfold regions_ok in *; cbn [Nat.mul] in Hr; lia).
      destruct (IH f m1 (i + B) (o + B) ltac:(lia) Hm1 Hr') as [I1 I2].
      set (m' := fst3 _) in *. split.
      + rewrite load_S, blocks_load_S. cbn [cbc_enc_blocks concat]. rewrite (xorl_comm (load m i bs)). fold x. f_equal.
        * rewrite <- L1. eapply load_same; [exact I2|]. right. lia.
        * rewrite I1, L1. do 3 f_equal. eapply load_same; [exact S1|]. unfold regions_ok in Hr. unfold disjoint. cbn [Nat.mul] in Hr. lia.
      + eapply same_trans; [eapply same_weaken; [exact S1|lia|cbn [Nat.mul]; lia]|eapply same_weaken; [exact I2|lia|cbn [Nat.mul]; lia]].
  Qed.
  (** CFB encryption with whole blocks: the input pointer trails the output. *)
  Lemma loop_cfb : forall n f m i o, (n <= f)%nat -> mem_ok m -> regions_ok i (o + B) (n * bs) ->
    let m' := fst3 (apb_loop E bs f m (PMem o) (PMem i) (o + B) (n * bs) bt0 B B B) in
    load m' (o + B) (n * bs) = concat (cfb_enc_segs E bs (load m o bs) (blocks bs (load m i (n * bs)))) /\ same_outside m m' (o + B) (n * bs).
  Proof.
    induction n as [|n IH]; intros f m i o Hf Hm Hr.
    - cbv zeta. rewrite loop_0. cbn [fst3 Nat.mul]. rewrite load_0, load_0, blocks_nil by auto. split; [reflexivity|apply same_refl].
    - destruct f as [|f]; [lia|]. rewrite loop_step by reflexivity. cbn [is_null negb andb padd bt_xorin bt0]. cbv zeta.
      unfold pax. cbn [is_null loadp].
      set (x := xorl (E (load m o bs)) (load m i bs)). set (m1 := store m (o + B) x).
      assert (Le : block_ok bs (E (load m o bs))) by (apply HE, load_block; auto).
      assert (L : block_ok bs x) by (apply xorl_block; auto; apply load_block; auto).
      assert (Hm1 : mem_ok m1) by (apply store_ok; auto; apply L).
      assert (S1 : same_outside m m1 (o + B) bs) by (apply store_same_outside'; symmetry; apply L).
      assert (L1 : load m1 (o + B) bs = x) by (apply load_store_same; symmetry; apply L).
      assert (Hr' : regions_ok (i + B) (o + B + B) (n * bs)) by (unfold regions_ok in *; cbn [Nat.mul] in Hr; lia).
      destruct (IH f m1 (i + B) (o + B) ltac:(lia) Hm1 Hr') as [I1 I2].
      set (m' := fst3 _) in *. split.
      + rewrite load_S, blocks_load_S. cbn [cfb_enc_segs concat].
        rewrite (firstn_all2 (n:=bs) (E (load m o bs))) by (destruct Le; lia). rewrite (xorl_comm (load m i bs)). fold x.
        rewrite (skipn_all2 (n:=bs) (load m o bs)) by (rewrite load_length; lia). cbn [app]. f_equal.
        * rewrite <- L1. eapply load_same; [exact I2|]. right. lia.
        * rewrite I1, L1. do 3 f_equal. eapply load_same; [exact S1|]. unfold regions_ok in Hr. unfold disjoint. cbn [Nat.mul] in Hr. lia.
      + eapply same_trans; [eapply same_weaken; [exact S1|lia|cbn [Nat.mul]; lia]|eapply same_weaken; [exact I2|lia|cbn [Nat.mul]; lia]].
  Qed.
  (** OFB: the input pointer trails the output, nothing to xor. *)
  Lemma loop_ofb : forall n f m o, (n <= f)%nat -> block_ok bs (load m o bs) ->
    let m' := fst3 (apb_loop E bs f m (PMem o) PNull (o + B) (n * bs) bt0 B 0 B) in
    load m' (o + B) (n * bs) = concat (map (fun j => Nat.iter (S j) E (load m o bs)) (seq 0 n)) /\ same_outside m m' (o + B) (n * bs).
  Proof.
    induction n as [|n IH]; intros f m o Hf Hm.
    - cbv zeta. rewrite loop_0. cbn [fst3 Nat.mul]. rewrite load_0. split; [reflexivity|apply same_refl].
    - destruct f as [|f]; [lia|]. rewrite loop_step by reflexivity. cbn [is_null negb andb padd bt_xorin bt0]. change (0 =? 0) with true. cbv iota zeta.
      unfold pax. cbn [is_null loadp].
      set (x := E (load m o bs)). set (m1 := store m (o + B) x).
      assert (L : block_ok bs x) by (apply HE; auto).
      assert (S1 : same_outside m m1 (o + B) bs) by (apply store_same_outside'; symmetry; apply L).
      assert (L1 : load m1 (o + B) bs = x) by (apply load_store_same; symmetry; apply L).
      destruct (IH f m1 (o + B) ltac:(lia) ltac:(rewrite L1; auto)) as [I1 I2].
      set (m' := fst3 _) in *. split.
      + rewrite load_S. cbn [seq map concat]. f_equal.
        * change (Nat.iter 1 E (load m o bs)) with x. rewrite <- L1. eapply load_same; [exact I2|]. right. lia.
        * rewrite I1, L1, <- seq_shift, map_map. f_equal. apply map_ext. intros j. unfold x.
          assert (It : forall k (y : list Z), Nat.iter (S k) E y = Nat.iter k E (E y)).
          { induction k; intros y; [reflexivity|]. change (Nat.iter (S (S k)) E y) with (E (Nat.iter (S k) E y)). rewrite IHk. reflexivity. }
          rewrite <- It. reflexivity.
      + eapply same_trans; [eapply same_weaken; [exact S1|lia|cbn [Nat.mul]; lia]|eapply same_weaken; [exact I2|lia|cbn [Nat.mul]; lia]].
  Qed.
  (** Backwards: block j of the output from block j of both inputs. *)
  Lemma loop_rev : forall n f m i x o, (n <= f)%nat -> mem_ok m ->
    (forall j k, (j < k < n)%nat -> disjoint (o + Z.of_nat (k * bs)) bs (i + Z.of_nat (j * bs)) bs /\ disjoint (o + Z.of_nat (k * bs)) bs (x + Z.of_nat (j * bs)) bs) ->
    let d := Z.of_nat (n * bs) - B in
    let m' := fst3 (apb_loop E bs f m (PMem (i + d)) (PMem (x + d)) (o + d) (n * bs) bt_rev (- B) (- B) (- B)) in
    load m' o (n * bs) = concat (map (fun j => xorl (E (blk m i j)) (blk m x j)) (seq 0 n)) /\ same_outside m m' o (n * bs).
  Proof.
    induction n as [|n IH]; intros f m i x o Hf Hm Hd; cbv zeta.
    - cbn [Nat.mul]. rewrite loop_0. cbn [fst3]. rewrite load_0. split; [reflexivity|apply same_refl].
    - destruct f as [|f]; [lia|]. rewrite loop_step by reflexivity. cbn [is_null negb andb padd bt_xorin bt_rev]. cbv zeta.
      unfold pax. cbn [is_null loadp].
      replace (Z.of_nat (S n * bs) - B) with (Z.of_nat (n * bs)) by (cbn [Nat.mul]; lia).
      fold (blk m i n). fold (blk m x n). set (y := xorl (E (blk m i n)) (blk m x n)).
      set (m1 := store m (o + Z.of_nat (n * bs)) y).
      assert (L : block_ok bs y) by (apply xorl_block; [apply HE|]; apply load_block; auto).
      assert (Hm1 : mem_ok m1) by (apply store_ok; auto; apply L).
      assert (S1 : same_outside m m1 (o + Z.of_nat (n * bs)) bs) by (apply store_same_outside'; symmetry; apply L).
      assert (L1 : load m1 (o + Z.of_nat (n * bs)) bs = y) by (apply load_store_same; symmetry; apply L).
      specialize (IH f m1 i x o ltac:(lia) Hm1 ltac:(intros; apply Hd; lia)). cbv zeta in IH.
      replace (i + Z.of_nat (n * bs) + - B) with (i + (Z.of_nat (n * bs) - B)) by lia.
      replace (x + Z.of_nat (n * bs) + - B) with (x + (Z.of_nat (n * bs) - B)) by lia.
      replace (o + Z.of_nat (n * bs) + - B) with (o + (Z.of_nat (n * bs) - B)) by lia.
      destruct IH as [I1 I2]. set (m' := fst3 _) in *. split.
      + rewrite load_S_end, seq_S, map_app, concat_app. cbn [map concat plus Nat.add]. rewrite app_nil_r. f_equal.
        * rewrite I1. f_equal. apply map_ext_in. intros j Hj. apply in_seq in Hj.
          destruct (Hd j n ltac:(lia)) as [D1 D2].
          assert (E1 : blk m1 i j = blk m i j) by (unfold blk; eapply load_same; [exact S1|exact D1]).
          assert (E2 : blk m1 x j = blk m x j) by (unfold blk; eapply load_same; [exact S1|exact D2]).
          rewrite E1, E2. reflexivity.
        * fold y. rewrite <- L1. eapply load_same; [exact I2|]. left. lia.
      + eapply same_trans; [eapply same_weaken; [exact S1|lia|cbn [Nat.mul]; lia]|eapply same_weaken; [exact I2|lia|cbn [Nat.mul]; lia]].
  Qed.
End Loops.
Arguments fst3 {A B C}.

Lemma apb_mem_fst : forall E bs m inp xorp out len fl, apb_mem E bs m inp xorp out len fl = fst3 (apb E bs m inp xorp out len fl).
Proof. intros. unfold apb_mem. destruct (apb E bs m inp xorp out len fl) as [[? ?] ?]. reflexivity. Qed.

(** ** List-level facts *)
Lemma last_cons : forall A (l : list A) a d, last (a :: l) d = last l a.
Proof. induction l as [|b l IH]; intros a d; [reflexivity|]. change (last (a :: b :: l) d) with (last (b :: l) d). rewrite !IH. reflexivity. Qed.
Lemma cbc_enc_app : forall E p1 p2 iv, cbc_enc_blocks E iv (p1 ++ p2) =
  cbc_enc_blocks E iv p1 ++ cbc_enc_blocks E (last (cbc_enc_blocks E iv p1) iv) p2.
Proof.
  induction p1 as [|p p1 IH]; intros p2 iv; [reflexivity|]. cbn [app cbc_enc_blocks]. rewrite IH, last_cons. reflexivity.
Qed.
Lemma cbc_dec_app : forall D c1 c2 iv, cbc_dec_blocks D iv (c1 ++ c2) = cbc_dec_blocks D iv c1 ++ cbc_dec_blocks D (last c1 iv) c2.
Proof.
  induction c1 as [|c c1 IH]; intros c2 iv; [reflexivity|]. cbn [app cbc_dec_blocks]. rewrite IH, last_cons. reflexivity.
Qed.
Lemma concat_snoc : forall A (l : list (list A)) x, concat (l ++ [x]) = concat l ++ x.
Proof. intros. rewrite concat_app. cbn [concat]. rewrite app_nil_r. reflexivity. Qed.

Section ListLevel.
  Variables (E D : list Z -> list Z) (bs : nat).
  Hypothesis Hbs : bs <> 0%nat.
  Hypothesis HE : cipher_ok bs E.
  Lemma cbc_enc_ok : forall ps iv, block_ok bs iv -> Forall (block_ok bs) ps -> Forall (block_ok bs) (cbc_enc_blocks E iv ps).
  Proof.
    induction ps as [|p ps IH]; intros iv Hi H; constructor; inversion H; subst.
    - apply HE, xorl_block; auto.
    - apply IH; auto. apply HE, xorl_block; auto.
  Qed.
  Lemma last_ok : forall ps iv, block_ok bs iv -> Forall (block_ok bs) ps -> block_ok bs (last ps iv).
  Proof. induction ps as [|p ps IH]; intros iv Hi H; [exact Hi|]. inversion H; subst. rewrite last_cons. apply IH; auto. Qed.
  Lemma cbc_inverse : forall ps iv, inverse bs E D -> block_ok bs iv -> Forall (block_ok bs) ps ->
    cbc_dec_blocks D iv (cbc_enc_blocks E iv ps) = ps.
  Proof.
    induction ps as [|p ps IH]; intros iv HD Hi H; [reflexivity|]. inversion H as [|? ? H1 H2]; subst. cbn [cbc_enc_blocks cbc_dec_blocks].
    assert (Hx : block_ok bs (xorl p iv)) by (apply xorl_block; auto).
    rewrite HD by auto. rewrite IH; auto. f_equal. apply xorl_cancel. destruct H1, Hi. lia.
  Qed.
  Lemma blocks_ok : forall l, bytes l -> Forall (block_ok bs) (blocks bs l).
  Proof.
    intros l Hl. pose proof (blocks_forall bs l Hbs) as F. rewrite Forall_forall in *. intros b Hb. split; [apply F; auto|].
    assert (Hc : bytes (concat (blocks bs l))). { rewrite (blocks_rest bs l Hbs) in Hl. unfold bytes in *. apply Forall_app in Hl. apply Hl. }
    unfold bytes in *. rewrite Forall_forall in *. intros x Hx. apply Hc. apply in_concat. exists b; auto.
  Qed.
  Lemma concat_blocks : forall l : list Z, (length l mod bs = 0)%nat -> concat (blocks bs l) = l.
  Proof. intros l Hl. rewrite (blocks_rest bs l Hbs) at 2. rewrite rest_mult, app_nil_r; auto. Qed.
  Lemma ok_lengths : forall l, Forall (block_ok bs) l -> Forall (fun b => length b = bs) l.
  Proof. intros l H. eapply Forall_impl; [|exact H]. intros a Ha. apply Ha. Qed.
  Lemma bytes_concat : forall l, Forall (block_ok bs) l -> bytes (concat l).
  Proof. induction l; intros H; [constructor|]. inversion H; subst. cbn [concat]. apply bytes_app; split; [apply H2|auto]. Qed.
End ListLevel.

Lemma mod0_mul : forall len bs, bs <> 0%nat -> (len mod bs = 0)%nat -> exists n, len = (n * bs)%nat.
Proof. intros len bs Hb H. exists (len / bs)%nat. pose proof (Nat.div_mod len bs Hb). lia. Qed.

(** ** The block modes *)
Section Modes.
  Variable E : list Z -> list Z.
  Variable bs : nat.
  Hypothesis Hbs : bs <> 0%nat.
  Hypothesis HE : cipher_ok bs E.
  Notation B := (Z.of_nat bs).

  Lemma ecb_process_spec : forall m out inp len, mem_ok m -> regions_ok inp out len -> (len mod bs = 0)%nat ->
    let m' := ecb_process E bs m out inp len in
    load m' out len = ecb_spec E bs (load m inp len) /\ same_outside m m' out len.
  Proof.
    intros m out inp len Hm Hr Hl. destruct (mod0_mul _ _ Hbs Hl) as [n ->]. unfold ecb_process. rewrite apb_mem_fst. unfold apb.
    cbn [bt_reverse bt_counter bt_dontinc bt0 orb is_null]. apply loop_ecb; auto. nia.
  Qed.

  (** A single block through AdvancedProcessBlocks. *)
  Lemma apb_one_xor : forall m i x o, apb_mem E bs m (PMem i) x o bs bt_xor = if is_null x then pax E bs m (PMem i) x o else
     let m' := store m o (xorl (loadp m x bs) (load m i bs)) in store m' o (E (load m' o bs)).
  Proof.
    intros. rewrite apb_mem_fst. unfold apb. cbn [bt_reverse bt_counter bt_dontinc bt_xor orb].
    assert (G : forall len f a b c, len = (S 0 * bs)%nat -> fst3 (apb_loop E bs (S f) m (PMem i) x o len bt_xor a b c) =
      if is_null x then pax E bs m (PMem i) x o else
       let m' := store m o (xorl (loadp m x bs) (load m i bs)) in store m' o (E (load m' o bs))).
    { intros len f a b c ->. rewrite loop_step by auto. rewrite Nat.mul_0_l. cbv zeta. rewrite loop_0 by auto. destruct x; reflexivity. }
    assert (Eb : exists k, bs = S k) by (destruct bs; [lia|eauto]). destruct Eb as [k Eb].
    rewrite Eb at 2. apply G. lia.
  Qed.

  Lemma cbc_encrypt_spec : forall m reg out inp len, mem_ok m -> block_ok bs reg -> regions_ok inp out len -> (len mod bs = 0)%nat ->
    let '(m', reg') := cbc_encrypt E bs m reg out inp len in
    load m' out len = cbc_enc_spec E bs reg (load m inp len) /\ same_outside m m' out len /\
    reg' = last (cbc_enc_blocks E reg (blocks bs (load m inp len))) reg.
  Proof.
    intros m reg out inp len Hm Hreg Hr Hl. destruct (mod0_mul _ _ Hbs Hl) as [n ->]. unfold cbc_encrypt, cbc_enc_spec.
    destruct n as [|n].
    { cbn [Nat.mul Nat.eqb]. rewrite !load_0, blocks_nil by auto. split; [reflexivity|]. split; [apply same_refl|reflexivity]. }
    rewrite (proj2 (Nat.eqb_neq (S n * bs) 0)) by nia. rewrite apb_one_xor. cbn [is_null loadp]. cbv zeta.
    rewrite firstn_all2 by (destruct Hreg; lia).
    set (x := xorl reg (load m inp bs)).
    assert (Lx : block_ok bs x) by (apply xorl_block; auto; apply load_block; auto).
    rewrite (load_store_same m out x) by (symmetry; apply Lx).
    set (m1 := store (store m out x) out (E x)).
    assert (L : block_ok bs (E x)) by (apply HE; auto).
    assert (Hm1 : mem_ok m1) by (apply store_ok; [apply store_ok; auto; apply Lx|apply L]).
    assert (S1 : same_outside m m1 out bs).
    { eapply same_trans; [apply store_same_outside'; symmetry; apply Lx|apply store_same_outside'; symmetry; apply L]. }
    assert (L1 : load m1 out bs = E x) by (apply load_store_same; symmetry; apply L).
    rewrite blocks_load_S by auto. cbn [cbc_enc_blocks concat]. rewrite (xorl_comm (load m inp bs)). fold x. rewrite last_cons.
    set (m2 := if Nat.ltb bs (S n * bs) then _ else m1).
    assert (X : load m2 (out + B) (n * bs) = concat (cbc_enc_blocks E (E x) (blocks bs (load m (inp + B) (n * bs)))) /\ same_outside m1 m2 (out + B) (n * bs)).
    { unfold m2. destruct (Nat.ltb_spec bs (S n * bs)) as [Hn|Hn].
      - replace (S n * bs - bs)%nat with (n * bs)%nat by lia. rewrite apb_mem_fst. unfold apb.
        cbn [bt_reverse bt_counter bt_dontinc bt_xor orb is_null].
        destruct (loop_cbc E bs Hbs HE n (n * bs)%nat m1 (inp + B) out ltac:(nia) Hm1 ltac:(unfold regions_ok in *; cbn [Nat.mul] in Hr; lia)) as [I1 I2].
        split; [|exact I2]. etransitivity; [exact I1|]. rewrite L1. do 3 f_equal. eapply load_same; [exact S1|].
        unfold regions_ok in Hr. unfold disjoint. cbn [Nat.mul] in Hr. lia.
      - assert (n = 0)%nat by nia. subst n. cbn [Nat.mul]. rewrite load_0, load_0, blocks_nil by auto. split; [reflexivity|apply same_refl]. }
    destruct X as [X1 X2]. clearbody m2.
    assert (Y : load m2 out (S n * bs) = E x ++ concat (cbc_enc_blocks E (E x) (blocks bs (load m (inp + B) (n * bs))))).
    { rewrite load_S by auto. f_equal; [|exact X1]. rewrite <- L1. eapply load_same; [exact X2|]. right. lia. }
    split; [exact Y|]. split.
    { eapply same_trans; [eapply same_weaken; [exact S1|lia|cbn [Nat.mul]; lia]|eapply same_weaken; [exact X2|lia|cbn [Nat.mul]; lia]]. }
    replace (out + (Z.of_nat (S n * bs) - B)) with (out + Z.of_nat (n * bs)) by (cbn [Nat.mul]; lia).
    set (cs := cbc_enc_blocks E (E x) _) in *.
    assert (Fc : Forall (block_ok bs) (E x :: cs)).
    { constructor; auto. apply cbc_enc_ok; auto. apply blocks_ok; auto. apply load_bytes; auto. }
    assert (Lc : length (E x :: cs) = S n).
    { assert (H : length (load m2 out (S n * bs)) = length (concat (E x :: cs))) by (rewrite Y; reflexivity).
      rewrite load_length in H. rewrite (length_concat_blocks bs) in H by (apply ok_lengths; auto). nia. }
    change (E x ++ concat cs) with (concat (E x :: cs)) in Y.
    rewrite <- (last_cons _ cs (E x) reg).
    destruct (exists_last (l := E x :: cs) ltac:(discriminate)) as (l' & z & El). rewrite El in *. rewrite last_last.
    apply Forall_app in Fc. destruct Fc as [F1 F2]. inversion F2; subst. rewrite app_length in Lc. cbn [length] in Lc.
    rewrite concat_snoc, load_S_end in Y by auto.
    apply app_inj_length in Y; [apply Y|]. rewrite load_length, (length_concat_blocks bs) by (apply ok_lengths; auto). nia.
  Qed.

  Lemma seq_shift_map : forall A (f : nat -> A) n, map f (seq 0 (S n)) = f O :: map (fun j => f (S j)) (seq 0 n).
  Proof. intros. cbn [seq map]. f_equal. rewrite <- seq_shift, map_map. reflexivity. Qed.
  Lemma cbc_dec_map : forall n m i reg, cbc_dec_blocks E reg (blocks bs (load m i (S n * bs))) =
    xorl (E (load m i bs)) reg :: map (fun j => xorl (E (blk bs m (i + B) j)) (blk bs m i j)) (seq 0 n).
  Proof.
    induction n as [|n IH]; intros m i reg.
    - rewrite blocks_load_S by auto. cbn [Nat.mul]. rewrite load_0, blocks_nil by auto. reflexivity.
    - rewrite blocks_load_S by auto. cbn [cbc_dec_blocks]. rewrite IH, seq_shift_map. f_equal. f_equal.
      + unfold blk. cbn [Nat.mul Z.of_nat]. rewrite !Z.add_0_r. reflexivity.
      + apply map_ext. intros j. unfold blk. do 2 f_equal; [f_equal|]; cbn [Nat.mul]; lia.
  Qed.
  Lemma load_end : forall n m i reg, load m (i + Z.of_nat (n * bs)) bs = last (blocks bs (load m i (S n * bs))) reg.
  Proof. intros. rewrite blocks_load, seq_S, map_app by auto. cbn [map]. rewrite last_last. reflexivity. Qed.

  Lemma cbc_decrypt_spec : forall m reg out inp len, mem_ok m -> block_ok bs reg -> regions_ok inp out len -> (len mod bs = 0)%nat ->
    let '(m', reg') := cbc_decrypt E bs m reg out inp len in
    load m' out len = cbc_dec_spec E bs reg (load m inp len) /\ same_outside m m' out len /\
    reg' = last (blocks bs (load m inp len)) reg.
  Proof.
    intros m reg out inp len Hm Hreg Hr Hl. destruct (mod0_mul _ _ Hbs Hl) as [n ->]. unfold cbc_decrypt, cbc_dec_spec.
    destruct n as [|n].
    { cbn [Nat.mul Nat.eqb]. rewrite !load_0, blocks_nil by auto. split; [reflexivity|]. split; [apply same_refl|reflexivity]. }
    rewrite (proj2 (Nat.eqb_neq (S n * bs) 0)) by nia. cbv zeta.
    replace (inp + (Z.of_nat (S n * bs) - B)) with (inp + Z.of_nat (n * bs)) by (cbn [Nat.mul]; lia).
    set (m1 := if Nat.ltb bs (S n * bs) then _ else m).
    assert (X : load m1 (out + B) (n * bs) = concat (map (fun j => xorl (E (blk bs m (inp + B) j)) (blk bs m inp j)) (seq 0 n)) /\ same_outside m m1 (out + B) (n * bs)).
    { unfold m1. destruct (Nat.ltb_spec bs (S n * bs)) as [Hn|Hn].
      - replace (S n * bs - bs)%nat with (n * bs)%nat by lia. rewrite apb_mem_fst. unfold apb.
        cbn [bt_reverse bt_counter bt_dontinc bt_rev orb is_null padd].
        apply (loop_rev E bs Hbs HE n (n * bs)%nat m (inp + B) inp (out + B)); auto; [nia|].
        intros j k Hj. unfold regions_ok in Hr. unfold disjoint.
        assert (A : (S j * bs <= k * bs)%nat) by (apply Nat.mul_le_mono_r; lia).
        assert (A' : (S k * bs <= n * bs)%nat) by (apply Nat.mul_le_mono_r; lia). cbn [Nat.mul] in A, A', Hr. lia.
      - assert (n = 0)%nat by nia. subst n. cbn [Nat.mul]. rewrite load_0. split; [reflexivity|apply same_refl]. }
    destruct X as [X1 X2]. clearbody m1. unfold pax. cbn [is_null loadp]. rewrite firstn_all2 by (destruct Hreg; lia).
    assert (L : load m1 inp bs = load m inp bs).
    { eapply load_same; [exact X2|]. unfold regions_ok in Hr. unfold disjoint. cbn [Nat.mul] in Hr. lia. }
    rewrite L. set (y := xorl (E (load m inp bs)) reg).
    assert (Ly : block_ok bs y) by (apply xorl_block; auto; apply HE, load_block; auto).
    split; [|split].
    - rewrite load_S by auto. rewrite cbc_dec_map. cbn [concat]. fold y. f_equal.
      + apply load_store_same. symmetry; apply Ly.
      + rewrite <- X1. apply load_store_disjoint. destruct Ly as [-> _]. left. lia.
    - eapply same_trans; [eapply same_weaken; [exact X2|lia|cbn [Nat.mul]; lia]|].
      eapply same_weaken; [apply store_same_outside'; symmetry; apply Ly|lia|cbn [Nat.mul]; lia].
    - apply load_end.
  Qed.

  (** Ciphertext stealing: what ProcessLastBlock does when the buffers do not overlap. *)
  Lemma xorl_zeros : forall a n, (length a <= n)%nat -> xorl a (repeat 0 n) = a.
  Proof. induction a; intros n H; [reflexivity|]. destruct n; cbn [length] in H; [lia|]. cbn [repeat xorl]. rewrite Z.lxor_0_r, IHa by lia. reflexivity. Qed.
  Lemma xor_reg_pad : forall reg d, length reg = bs -> (length d <= bs)%nat -> xor_reg reg d = xorl reg (zpad bs d).
  Proof.
    intros reg d Hl Hd. unfold xor_reg, write, zpad.
    assert (Lx : length (xorl (firstn (length d) reg) d) = length d) by (rewrite xorl_length, firstn_length; lia).
    rewrite Lx. cbn [firstn app Nat.add]. rewrite <- (firstn_skipn (length d) reg) at 3.
    rewrite xorl_app by (rewrite firstn_length; lia). f_equal. symmetry. apply xorl_zeros. rewrite skipn_length. lia.
  Qed.
  Definition cts_tail (reg t : list Z) : list Z :=
    let c1 := E (xorl reg (firstn bs t)) in
    E (xorl c1 (zpad bs (skipn bs t))) ++ firstn (length t - bs) c1.
  Lemma cts_encrypt_last_spec : forall m reg st out inp len, mem_ok m -> block_ok bs reg -> (bs < len)%nat -> (len <= 2 * bs)%nat -> disjoint inp len out len ->
    exists m' reg', cts_encrypt_last E bs m reg st out inp len = Some (m', reg') /\
      load m' out len = cts_tail reg (load m inp len) /\ same_outside m m' out len.
  Proof.
    intros m reg st out inp len Hm Hreg Hl Hl2 Hd. unfold cts_encrypt_last. rewrite (proj2 (Nat.leb_gt len bs)) by lia. cbv zeta.
    eexists. eexists. split; [reflexivity|].
    rewrite xor_reg_pad by (rewrite ?load_length; auto; apply Hreg).
    replace (zpad bs (load m inp bs)) with (load m inp bs) by (unfold zpad; rewrite load_length, Nat.sub_diag; cbn [repeat]; rewrite app_nil_r; reflexivity).
    set (c1 := E (xorl reg (load m inp bs))).
    assert (L1 : block_ok bs c1) by (apply HE, xorl_block; auto; apply load_block; auto).
    set (m1 := store m (out + B) (firstn (len - bs) c1)).
    assert (Lf : length (firstn (len - bs) c1) = (len - bs)%nat) by (rewrite firstn_length; destruct L1; lia).
    assert (S1 : same_outside m m1 (out + B) (len - bs)) by (apply store_same_outside'; auto).
    assert (Li : load m1 (inp + B) (len - bs) = load m (inp + B) (len - bs)).
    { eapply load_same; [exact S1|]. unfold disjoint in *. lia. }
    rewrite Li. rewrite xor_reg_pad by (rewrite ?load_length; try lia; apply L1).
    set (c2 := E (xorl c1 (zpad bs (load m (inp + B) (len - bs))))).
    assert (L2 : block_ok bs c2). { apply HE, xorl_block; auto. apply zpad_ok; [apply load_bytes; auto|rewrite load_length; lia]. }
    rewrite (firstn_all2 c2) by (destruct L2; lia). split.
    - replace len with (bs + (len - bs))%nat at 1 by lia. rewrite load_app. unfold cts_tail.
      rewrite load_firstn, load_skipn, load_length by lia. fold c1. fold c2. f_equal.
      + apply load_store_same. symmetry; apply L2.
      + rewrite load_store_disjoint by (destruct L2 as [-> _]; left; lia). apply load_store_same. auto.
    - eapply same_trans; [eapply same_weaken; [exact S1|lia|lia]|].
      eapply same_weaken; [apply store_same_outside'; symmetry; apply L2|lia|lia].
  Qed.
  Lemma cts_encrypt_iv_spec : forall m reg iv out inp len, mem_ok m -> block_ok bs reg -> (len <= bs)%nat -> disjoint inp len out len -> disjoint iv bs out len ->
    exists m' reg', cts_encrypt_last E bs m reg (Some iv) out inp len = Some (m', reg') /\
      load m' out len = firstn len reg /\ load m' iv bs = E (xorl reg (zpad bs (load m inp len))) /\
      (forall x, x < out \/ out + Z.of_nat len <= x -> x < iv \/ iv + B <= x -> m' x = m x).
  Proof.
    intros m reg iv out inp len Hm Hreg Hl Hd Hv. unfold cts_encrypt_last. rewrite (proj2 (Nat.leb_le len bs)) by lia. cbv zeta.
    eexists. eexists. split; [reflexivity|].
    assert (Lf : length (firstn len reg) = len) by (rewrite firstn_length; destruct Hreg; lia).
    rewrite (load_store_disjoint m out (firstn len reg) inp len) by (rewrite Lf; unfold disjoint in *; lia).
    rewrite xor_reg_pad by (rewrite ?load_length; try lia; apply Hreg).
    set (c2 := E (xorl reg (zpad bs (load m inp len)))).
    assert (L2 : block_ok bs c2). { apply HE, xorl_block; auto. apply zpad_ok; [apply load_bytes; auto|rewrite load_length; lia]. }
    rewrite (firstn_all2 c2) by (destruct L2; lia). split; [|split].
    - rewrite load_store_disjoint by (destruct L2 as [-> _]; unfold disjoint in *; lia). apply load_store_same. auto.
    - apply load_store_same. symmetry; apply L2.
    - intros x H1 H2. rewrite store_outside by (destruct L2 as [-> _]; auto). rewrite store_outside by (rewrite Lf; auto). reflexivity.
  Qed.

  (** Decryption ([E] is the inverse cipher here). *)
  Definition cts_untail (reg t : list Z) : list Z :=
    let n := (length t - bs)%nat in
    let c1 := skipn bs t in
    let temp := xorl (E (firstn bs t)) (zpad bs c1) in
    xorl (E (c1 ++ skipn n temp)) reg ++ firstn n temp.
  Lemma cts_decrypt_last_spec : forall m reg out inp len, mem_ok m -> block_ok bs reg -> (bs < len)%nat -> (len <= 2 * bs)%nat -> disjoint inp len out len ->
    let m' := cts_decrypt_last E bs m reg out inp len in
    load m' out len = cts_untail reg (load m inp len) /\ same_outside m m' out len.
  Proof.
    intros m reg out inp len Hm Hreg Hl Hl2 Hd. unfold cts_decrypt_last. rewrite (proj2 (Nat.leb_gt len bs)) by lia. cbv zeta iota. cbn [loadp].
    assert (Ld : block_ok bs (E (load m inp bs))) by (apply HE, load_block; auto).
    rewrite xor_reg_pad by (rewrite ?load_length; try lia; apply Ld).
    unfold cts_untail. rewrite load_length, load_firstn, load_skipn by lia. cbv zeta.
    set (c1 := load m (inp + B) (len - bs)). set (temp := xorl (E (load m inp bs)) (zpad bs c1)).
    assert (Hc1 : bytes c1 /\ length c1 = (len - bs)%nat) by (split; [apply load_bytes; auto|apply load_length]).
    assert (Lt : block_ok bs temp). { apply xorl_block; auto. apply zpad_ok; [apply Hc1|]. destruct Hc1; lia. }
    set (m1 := store m (out + B) (firstn (len - bs) temp)).
    assert (Lf : length (firstn (len - bs) temp) = (len - bs)%nat) by (rewrite firstn_length; destruct Lt; lia).
    assert (S1 : same_outside m m1 (out + B) (len - bs)) by (apply store_same_outside'; auto).
    replace (load m1 (inp + B) (len - bs)) with c1 by (unfold c1; symmetry; eapply load_same; [exact S1|]; unfold disjoint in *; lia).
    assert (W : write 0 c1 temp = c1 ++ skipn (len - bs) temp).
    { unfold write. cbn [firstn app Nat.add]. destruct Hc1 as [_ ->]. reflexivity. }
    rewrite W. set (y := xorl _ reg).
    assert (Ly : block_ok bs y).
    { apply xorl_block; auto. apply HE. destruct Hc1 as [H1 H2], Lt as [H3 H4]. split; [rewrite app_length, skipn_length; lia|].
      apply bytes_app; split; auto. apply bytes_skipn; auto. }
    split.
    - replace len with (bs + (len - bs))%nat at 1 by lia. rewrite load_app. f_equal.
      + apply load_store_same. symmetry; apply Ly.
      + rewrite load_store_disjoint by (destruct Ly as [-> _]; left; lia). apply load_store_same. auto.
    - eapply same_trans; [eapply same_weaken; [exact S1|lia|lia]|].
      eapply same_weaken; [apply store_same_outside'; symmetry; apply Ly|lia|lia].
  Qed.
  Lemma cts_decrypt_iv_spec : forall m reg out inp len, mem_ok m -> block_ok bs reg -> (len <= bs)%nat ->
    let m' := cts_decrypt_last E bs m reg out inp len in
    load m' out len = xorl (firstn len (E reg)) (load m inp len) /\ same_outside m m' out len.
  Proof.
    intros m reg out inp len Hm Hreg Hl. unfold cts_decrypt_last. rewrite (proj2 (Nat.leb_le len bs)) by lia. cbv zeta iota. cbn [loadp].
    rewrite (firstn_all2 reg) by (destruct Hreg; lia).
    assert (Le : block_ok bs (E reg)) by (apply HE; auto).
    rewrite xor_reg_pad by (rewrite ?load_length; try lia; apply Le).
    assert (Hx : firstn len (xorl (E reg) (zpad bs (load m inp len))) = xorl (firstn len (E reg)) (load m inp len)).
    { rewrite xorl_firstn. f_equal. unfold zpad. rewrite firstn_app_le by (rewrite load_length; lia). apply firstn_all2. rewrite load_length; lia. }
    rewrite Hx.
    assert (Lx : len = length (xorl (firstn len (E reg)) (load m inp len))) by (rewrite xorl_length, load_length, firstn_length; destruct Le; lia).
    split; [apply load_store_same; auto|apply store_same_outside'; auto].
  Qed.
End Modes.

Lemma cts_tail_length : forall E bs, cipher_ok bs E -> forall reg t, block_ok bs reg -> bytes t -> (bs < length t)%nat -> (length t <= 2 * bs)%nat ->
  length (cts_tail E bs reg t) = length t.
Proof.
  intros E bs HE reg t Hreg Ht H1 H2. unfold cts_tail. rewrite app_length, firstn_length.
  assert (L1 : block_ok bs (E (xorl reg (firstn bs t)))).
  { apply HE, xorl_block; auto. split; [rewrite firstn_length; lia|apply bytes_firstn; auto]. }
  assert (L2 : block_ok bs (E (xorl (E (xorl reg (firstn bs t))) (zpad bs (skipn bs t))))).
  { apply HE, xorl_block; auto. apply zpad_ok; [apply bytes_skipn; auto|rewrite skipn_length; lia]. }
  destruct L1 as [-> _], L2 as [-> _]. lia.
Qed.
Lemma cts_inverse : forall E D bs, cipher_ok bs E -> inverse bs E D -> forall reg t, block_ok bs reg -> bytes t -> (bs < length t)%nat -> (length t <= 2 * bs)%nat ->
  cts_untail D bs reg (cts_tail E bs reg t) = t.
Proof.
  intros E D bs HE HD reg t Hreg Ht H1 H2. unfold cts_untail. rewrite cts_tail_length by auto. unfold cts_tail. cbv zeta.
  assert (Lx : block_ok bs (xorl reg (firstn bs t))).
  { apply xorl_block; auto. split; [rewrite firstn_length; lia|apply bytes_firstn; auto]. }
  assert (L1 : block_ok bs (E (xorl reg (firstn bs t)))) by (apply HE; auto).
  set (c1 := E (xorl reg (firstn bs t))) in *.
  assert (Lz : block_ok bs (zpad bs (skipn bs t))) by (apply zpad_ok; [apply bytes_skipn; auto|rewrite skipn_length; lia]).
  assert (Ly : block_ok bs (xorl c1 (zpad bs (skipn bs t)))) by (apply xorl_block; auto).
  assert (L2 : block_ok bs (E (xorl c1 (zpad bs (skipn bs t))))) by (apply HE; auto).
  set (c2 := E (xorl c1 (zpad bs (skipn bs t)))) in *.
  rewrite firstn_app_le by (destruct L2; lia). rewrite (firstn_all2 c2) by (destruct L2; lia).
  rewrite skipn_app_ge by (destruct L2; lia). replace (bs - length c2)%nat with 0%nat by (destruct L2; lia). rewrite skipn_O.
  unfold c2 at 1 2. rewrite HD by auto. set (n := (length t - bs)%nat). 
  assert (Lc : length c1 = bs) by apply L1.
  assert (Ep : skipn bs t = skipn bs t) by reflexivity.
  (* c1 = a ++ b with |a| = n *)
  set (a := firstn n c1). set (b := skipn n c1).
  assert (Ec : c1 = a ++ b) by (symmetry; apply firstn_skipn).
  assert (La : length a = n) by (unfold a; rewrite firstn_length; unfold n; lia).
  assert (Lb : length b = (bs - n)%nat) by (unfold b; rewrite skipn_length; lia).
  assert (Lp : length (skipn bs t) = n) by (rewrite skipn_length; reflexivity).
  assert (X : xorl (xorl c1 (zpad bs (skipn bs t))) (zpad bs a) = skipn bs t ++ b).
  { unfold zpad. rewrite Lp, La, Ec. rewrite xorl_app by lia. rewrite xorl_app by (rewrite xorl_length; lia). f_equal.
    - rewrite (xorl_comm a). apply xorl_cancel. lia.
    - apply xorl_cancel. rewrite repeat_length. lia. }
  rewrite X. rewrite firstn_app_le, firstn_all2 by lia. rewrite skipn_app_ge by lia. rewrite Lp, Nat.sub_diag, skipn_O.
  rewrite <- Ec. unfold c1. rewrite HD by auto. rewrite (xorl_comm reg).
  rewrite xorl_cancel by (rewrite firstn_length; destruct Hreg; lia). apply firstn_skipn.
Qed.
(** The last two blocks in terms of the published definition. *)
Lemma cts_is_spec : forall E bs, bs <> 0%nat -> cipher_ok bs E -> forall iv h t, block_ok bs iv -> bytes h -> bytes t -> (length h mod bs = 0)%nat ->
  (bs < length t)%nat -> (length t <= 2 * bs)%nat ->
  cbc_enc_spec E bs iv h ++ cts_tail E bs (last (cbc_enc_blocks E iv (blocks bs h)) iv) t = cts_spec E bs iv (h ++ t).
Proof.
  intros E bs Hbs HE iv h t Hiv Hh Ht Hm H1 H2. unfold cts_spec.
  destruct (mod0_mul _ _ Hbs Hm) as [k Hk].
  assert (Hpad : ((bs - length (h ++ t) mod bs) mod bs)%nat = (2 * bs - length t)%nat).
  { rewrite app_length, Hk. rewrite Nat.add_comm, Nat.mod_add by auto.
    destruct (Nat.eq_dec (length t) (2 * bs)) as [->|Hne].
    - rewrite Nat.mod_mul by auto. rewrite Nat.sub_0_r, Nat.mod_same by auto. lia.
    - rewrite (Nat.mod_eq (length t) bs Hbs). replace (length t / bs)%nat with 1%nat.
      + rewrite Nat.mod_small; lia.
      + apply (Nat.div_unique _ _ 1 (length t - bs)); lia. }
  rewrite Hpad. rewrite <- app_assoc.
  set (t' := t ++ repeat 0 (2 * bs - length t)).
  assert (Et : t' = firstn bs t ++ zpad bs (skipn bs t)).
  { unfold t', zpad. rewrite app_assoc, firstn_skipn. do 2 f_equal. rewrite skipn_length. lia. }
  unfold cbc_enc_spec. rewrite blocks_app_mult by auto. rewrite cbc_enc_app, concat_app.
  set (hc := cbc_enc_blocks E iv (blocks bs h)). set (reg := last hc iv).
  assert (Fh : Forall (block_ok bs) hc) by (apply cbc_enc_ok; auto; apply blocks_ok; auto).
  assert (Hreg : block_ok bs reg) by (apply last_ok; auto).
  assert (Bt : blocks bs t' = [firstn bs t; zpad bs (skipn bs t)]).
  { rewrite Et. rewrite blocks_app_block by (auto; rewrite firstn_length; lia). f_equal.
    assert (Lz : block_ok bs (zpad bs (skipn bs t))) by (apply zpad_ok; [apply bytes_skipn; auto|rewrite skipn_length; lia]).
    rewrite <- (app_nil_r (zpad bs (skipn bs t))) at 1. rewrite blocks_app_block by (auto; apply Lz).
    rewrite blocks_nil by auto. reflexivity. }
  rewrite Bt. cbn [cbc_enc_blocks concat]. rewrite app_nil_r.
  unfold cts_tail. rewrite (xorl_comm (firstn bs t)). rewrite (xorl_comm (zpad bs (skipn bs t))).
  set (c1 := E (xorl reg (firstn bs t))). set (c2 := E (xorl c1 (zpad bs (skipn bs t)))).
  assert (L1 : block_ok bs c1). { apply HE, xorl_block; auto. split; [rewrite firstn_length; lia|apply bytes_firstn; auto]. }
  assert (L2 : block_ok bs c2). { apply HE, xorl_block; auto. apply zpad_ok; [apply bytes_skipn; auto|rewrite skipn_length; lia]. }
  destruct L1 as [L1 _], L2 as [L2 _].
  assert (Lh : length (concat hc) = length h).
  { rewrite (length_concat_blocks bs) by (apply ok_lengths; auto).
    assert (Lk : forall ps r, length (cbc_enc_blocks E r ps) = length ps) by (induction ps; intros; cbn [cbc_enc_blocks length]; auto).
    unfold hc. rewrite Lk, blocks_count, Hk, Nat.div_mul by auto. lia. }
  rewrite !app_length, Lh, L1, L2.
  replace (length h + (bs + bs) - 2 * bs)%nat with (length h) by lia.
  replace (length h + (bs + bs) - bs)%nat with (length h + bs)%nat by lia.
  rewrite (firstn_app_le (length h) (concat hc)), (firstn_all2 (concat hc)) by lia.
  rewrite (skipn_app_ge (length h + bs)) by lia. rewrite Lh. replace (length h + bs - length h)%nat with bs by lia.
  rewrite (skipn_app_ge bs) by lia. rewrite L1, Nat.sub_diag, skipn_O.
  rewrite (skipn_app_ge (length h)) by lia. rewrite Lh, Nat.sub_diag, skipn_O.
  rewrite (firstn_app_le bs c1), (firstn_all2 (n:=bs) c1) by lia.
  rewrite firstn_app_ge by lia. rewrite Lh. f_equal. rewrite firstn_app_ge by lia. f_equal. f_equal. lia.
Qed.

(** ** CFB *)
Section Cfb.
  Variable E : list Z -> list Z.
  Variables bs fb : nat.
  Hypothesis Hfb : (0 < fb <= bs)%nat.
  Hypothesis HE : cipher_ok bs E.
  Notation B := (Z.of_nat bs).
  Variable enc : bool.

  (** Byte by byte: the shift register before the current segment, and the ciphertext of that segment so far. *)
  Definition cst := (list Z * list Z)%type.
  Definition norm (r c : list Z) : cst := if Nat.eqb (length c) fb then (skipn fb r ++ c, []) else (r, c).
  Fixpoint cfb_run (st : cst) (msg : list Z) : list Z * cst :=
    match msg with
    | [] => ([], st)
    | b :: t => let '(r, c) := st in
                let o := Z.lxor b (nth (length c) (E r) 0) in
                let '(os, st') := cfb_run (norm r (c ++ [if enc then o else b])) t in (o :: os, st')
    end.
  Lemma cfb_run_app : forall a b st, cfb_run st (a ++ b) =
    let '(o1, st1) := cfb_run st a in let '(o2, st2) := cfb_run st1 b in (o1 ++ o2, st2).
  Proof.
    induction a as [|x a IH]; intros b st; cbn [app cfb_run].
    - destruct (cfb_run st b); reflexivity.
    - destruct st as [r c]. rewrite IH. destruct (cfb_run _ a) as [o1 st1]. destruct (cfb_run st1 b). reflexivity.
  Qed.
  Lemma cfb_run_length : forall m st, length (fst (cfb_run st m)) = length m.
  Proof. induction m as [|x m IH]; intros [r c]; [reflexivity|]. cbn [cfb_run]. specialize (IH (norm r (c ++ [if enc then Z.lxor x (nth (length c) (E r) 0) else x]))). destruct (cfb_run _ m). cbn [fst] in *. cbn [length]. lia. Qed.
  (** Within one segment *)
  Lemma cfb_run_chunk : forall msg r c, (length c < fb)%nat -> (length c + length msg <= fb)%nat -> (bs <= length (E r))%nat ->
    cfb_run (r, c) msg = let o := xorl (firstn (length msg) (skipn (length c) (E r))) msg in
      (o, norm r (c ++ if enc then o else msg)).
  Proof.
    induction msg as [|b msg IH]; intros r c Hc Hl He.
    - cbn [cfb_run length]. cbv zeta. cbn [firstn xorl]. unfold norm. 
      replace (c ++ (if enc then [] else [])) with c by (destruct enc; rewrite app_nil_r; reflexivity).
      rewrite (proj2 (Nat.eqb_neq (length c) fb)) by lia. reflexivity.
    - cbn [cfb_run]. cbn [length] in Hl.
      assert (Es : skipn (length c) (E r) = nth (length c) (E r) 0 :: skipn (S (length c)) (E r)) by (apply skipn_cons_nth; lia).
      set (o := Z.lxor b (nth (length c) (E r) 0)). set (x := if enc then o else b).
      cbn [length]. rewrite Es. cbn [firstn xorl]. rewrite (Z.lxor_comm (nth _ _ _)). fold o.
      destruct (Nat.eq_dec (length c + 1) fb) as [Hf|Hf].
      + assert (msg = []) by (destruct msg; auto; cbn [length] in Hl; lia). subst msg. cbn [cfb_run length firstn xorl]. f_equal. f_equal. unfold x. destruct enc; reflexivity.
      + unfold norm at 1. rewrite app_length. cbn [length]. rewrite (proj2 (Nat.eqb_neq (length c + 1) fb)) by lia.
        rewrite IH by (rewrite ?app_length; cbn [length]; lia). cbv zeta. rewrite app_length. cbn [length]. rewrite Nat.add_1_r.
        f_equal. f_equal. rewrite <- app_assoc. f_equal. unfold x. destruct enc; reflexivity.
  Qed.
  (** The published segment-wise definition *)
  Lemma cfb_run_seg : forall msg r, length msg = fb -> block_ok bs r ->
    cfb_run (r, []) msg = (xorl msg (firstn fb (E r)), (skipn fb r ++ (if enc then xorl msg (firstn fb (E r)) else msg), [])).
  Proof.
    intros msg r Hl Hr. pose proof (HE r Hr) as [Le _]. rewrite cfb_run_chunk by (cbn [length]; lia). cbn [length skipn app]. rewrite Hl.
    cbv zeta. rewrite (xorl_comm msg). f_equal. unfold norm.
    assert (L : length (if enc then xorl (firstn fb (E r)) msg else msg) = fb).
    { destruct enc; auto. rewrite xorl_length, firstn_length. lia. }
    rewrite L, Nat.eqb_refl. reflexivity.
  Qed.
  Lemma shift_ok : forall r c, block_ok bs r -> length c = fb -> bytes c -> block_ok bs (skipn fb r ++ c).
  Proof.
    intros r c [H1 H2] H3 H4. split; [rewrite app_length, skipn_length; lia|]. apply bytes_app; split; auto. apply bytes_skipn; auto.
  Qed.
  Definition segs := if enc then cfb_enc_segs else cfb_dec_segs.
  Lemma cfb_run_spec : forall msg r, block_ok bs r -> bytes msg -> fst (cfb_run (r, []) msg) = cfb_spec enc E fb r msg.
  Proof.
    intros msg. pattern msg. apply (block_ind fb); [lia| |].
    - intros l Hl r Hr Hb. pose proof (HE r Hr) as [Le _]. rewrite cfb_run_chunk by (cbn [length]; lia). cbn [fst]. unfold cfb_spec.
      rewrite blocks_small, rest_small by auto. cbn [app length skipn]. rewrite xorl_comm.
      assert (X : xorl l (firstn (length l) (E r)) = xorl l (firstn fb (E r))).
      { rewrite (xorl_trim l (firstn fb (E r))), firstn_firstn. do 2 f_equal. lia. }
      destruct enc; cbn [cfb_enc_segs cfb_dec_segs concat]; rewrite app_nil_r; exact X.
    - intros b l Hbl IH r Hr Hb. apply bytes_app in Hb. destruct Hb as [Hb1 Hb2]. rewrite cfb_run_app, cfb_run_seg by auto.
      pose proof (HE r Hr) as [Le Lb].
      assert (Ho : bytes (if enc then xorl b (firstn fb (E r)) else b)) by (destruct enc; auto; apply xorl_bytes; auto; apply bytes_firstn; auto).
      assert (Lo : length (if enc then xorl b (firstn fb (E r)) else b) = fb) by (destruct enc; auto; rewrite xorl_length, firstn_length; lia).
      specialize (IH _ (shift_ok r _ Hr Lo Ho) Hb2).
      destruct (cfb_run _ l) as [o st]. cbn [fst] in *. subst o. unfold cfb_spec. rewrite blocks_app_block, rest_app_block by (auto; lia).
      destruct enc; reflexivity.
  Qed.

  Lemma fb_nz : fb <> 0%nat. Proof. lia. Qed.
  Lemma bs_nz : bs <> 0%nat. Proof. lia. Qed.

  (** The state of the object stands for the byte-wise state. *)
  Definition crep (s : cfb) (st : cst) : Prop :=
    let '(r, c) := st in block_ok bs r /\ bytes c /\ (length c < fb)%nat /\
    ((cf_left s = fb - length c)%nat /\ cf_reg s = skipn fb r ++ c ++ skipn (length c) (firstn fb (E r)) \/
     c = [] /\ cf_left s = 0%nat /\ cf_reg s = r).
  Lemma crep_norm : forall r c, block_ok bs r -> bytes c -> (length c <= fb)%nat ->
    crep (mkCF (skipn fb r ++ c ++ skipn (length c) (firstn fb (E r))) (fb - length c)) (norm r c).
  Proof.
    intros r c Hr Hc Hl. pose proof (HE r Hr) as [Le Lb]. unfold norm. destruct (Nat.eqb_spec (length c) fb) as [Hf|Hf]; unfold crep; cbn [cf_left cf_reg].
    - split; [apply shift_ok; auto|]. split; [constructor|]. split; [cbn [length]; lia|]. right. split; auto. split; [lia|].
      rewrite (skipn_all2 (n:=length c) (firstn fb (E r))) by (rewrite firstn_length; lia). rewrite app_nil_r. reflexivity.
    - split; [auto|]. split; [auto|]. split; [lia|]. left. auto.
  Qed.
  Lemma combine_spec : forall r c msg, block_ok bs r -> (length c + length msg <= fb)%nat ->
    let o := xorl (firstn (length msg) (skipn (length c) (E r))) msg in
    let y := c ++ (if enc then o else msg) in
    cfb_combine bs fb enc (skipn fb r ++ c ++ skipn (length c) (firstn fb (E r))) (length c) msg =
      (o, skipn fb r ++ y ++ skipn (length y) (firstn fb (E r))) /\ length o = length msg /\ length y = (length c + length msg)%nat.
  Proof.
    intros r c msg Hr Hl o y. pose proof (HE r Hr) as [Le Lb]. destruct Hr as [Hr _]. unfold cfb_combine. cbv zeta.
    assert (Lo : length o = length msg) by (unfold o; rewrite xorl_length, firstn_length, skipn_length; lia).
    assert (Ly : length y = (length c + length msg)%nat) by (unfold y; rewrite app_length; destruct enc; lia).
    set (K := skipn (length c) (firstn fb (E r))).
    assert (LK : length K = (fb - length c)%nat) by (unfold K; rewrite skipn_length, firstn_length; lia).
    assert (Ls : length (skipn fb r) = (bs - fb)%nat) by (rewrite skipn_length; lia).
    assert (Ek : firstn (length msg) K = firstn (length msg) (skipn (length c) (E r))).
    { unfold K. rewrite skipn_firstn_comm, firstn_firstn. f_equal. lia. }
    assert (Eo : skipn (bs - fb + length c) (skipn fb r ++ c ++ K) = K).
    { rewrite skipn_app_ge by lia. rewrite Ls. rewrite skipn_app_ge by lia. replace (bs - fb + length c - (bs - fb) - length c)%nat with 0%nat by lia. reflexivity. }
    assert (Ew : forall z, length z = length msg -> write (bs - fb + length c) z (skipn fb r ++ c ++ K) = skipn fb r ++ (c ++ z) ++ skipn (length msg) K).
    { intros z Hz. unfold write. rewrite Hz.
      replace (firstn (bs - fb + length c) (skipn fb r ++ c ++ K)) with (skipn fb r ++ c).
      - rewrite (app_assoc (skipn fb r) c K). rewrite skipn_app_ge by (rewrite app_length; lia).
        rewrite app_length. replace (bs - fb + length c + length msg - (length (skipn fb r) + length c))%nat with (length msg) by lia.
        rewrite <- !app_assoc. reflexivity.
      - rewrite app_assoc. rewrite firstn_app_le by (rewrite app_length; lia). symmetry. apply firstn_all2. rewrite app_length; lia. }
    rewrite Eo, Ek. fold o.
    assert (Ey : skipn (length msg) K = skipn (length y) (firstn fb (E r))).
    { unfold K. rewrite skipn_skipn_add, Ly. f_equal. lia. }
    split; [|auto]. unfold y in *. destruct enc; rewrite Ew by auto; rewrite Ey; reflexivity.
  Qed.

  Definition ceff (st : cst) (m m' : mem) (out inp : Z) (n : nat) : Prop :=
    load m' out n = fst (cfb_run st (load m inp n)) /\ same_outside m m' out n.
  Lemma ceff_app : forall st m m1 m2 out inp a b, ceff st m m1 out inp a ->
    ceff (snd (cfb_run st (load m inp a))) m1 m2 (out + Z.of_nat a) (inp + Z.of_nat a) b -> regions_ok inp out (a + b) ->
    ceff st m m2 out inp (a + b) /\
    snd (cfb_run st (load m inp (a + b))) = snd (cfb_run (snd (cfb_run st (load m inp a))) (load m1 (inp + Z.of_nat a) b)).
  Proof.
    intros st m m1 m2 out inp a b [A1 A2] [B1 B2] R.
    assert (L : load m1 (inp + Z.of_nat a) b = load m (inp + Z.of_nat a) b).
    { apply load_same with out a; auto. destruct R as [R|[R|R]]; unfold disjoint; lia. }
    rewrite L in *. unfold ceff. rewrite (load_app m inp a b), cfb_run_app.
    destruct (cfb_run st (load m inp a)) as [o1 st1] eqn:E1. cbn [fst snd] in *.
    destruct (cfb_run st1 (load m (inp + Z.of_nat a) b)) as [o2 st2] eqn:E2. cbn [fst snd] in *.
    split; [|reflexivity]. split.
    - rewrite load_app. f_equal; auto. rewrite <- A1. apply load_same with (out + Z.of_nat a) b; auto. right. lia.
    - apply same_trans with m1; eapply same_weaken; eauto; lia.
  Qed.
  Lemma ceff_0 : forall st m out inp, ceff st m m out inp 0.
  Proof. intros. split; [reflexivity|apply same_refl]. Qed.

  (** The beginning or continuation of a segment. *)
  Lemma chunk_step : forall r c m out inp len, block_ok bs r -> bytes c -> (length c < fb)%nat -> (length c + len <= fb)%nat -> bytes (load m inp len) ->
    let '(o, reg) := cfb_combine bs fb enc (skipn fb r ++ c ++ skipn (length c) (firstn fb (E r))) (length c) (load m inp len) in
    ceff (r, c) m (store m out o) out inp len /\ crep (mkCF reg (fb - length c - len)) (snd (cfb_run (r, c) (load m inp len))) /\
    length o = len /\ bytes o.
  Proof.
    intros r c m out inp len Hr Hc Hl Hl2 Hb. pose proof (HE r Hr) as [Le Lb].
    destruct (combine_spec r c (load m inp len) Hr ltac:(rewrite load_length; lia)) as (C1 & C2 & C3).
    rewrite load_length in C1, C2, C3. rewrite C1. unfold ceff. rewrite cfb_run_chunk by (rewrite ?load_length; lia). cbv zeta. cbn [fst snd].
    rewrite load_length.
    set (o := xorl (firstn len (skipn (length c) (E r))) (load m inp len)) in *.
    assert (Bo : bytes o) by (apply xorl_bytes; auto; apply bytes_firstn, bytes_skipn; auto).
    split; [split; [apply load_store_same; auto|apply store_same_outside'; auto]|]. split; [|auto].
    replace (fb - length c - len)%nat with (fb - length (c ++ (if enc then o else load m inp len)))%nat by lia.
    apply crep_norm; auto; [|lia]. apply bytes_app. split; auto. destruct enc; auto.
  Qed.
  Lemma transform_is : forall r, cfb_transform E fb r = skipn fb r ++ [] ++ skipn (length (@nil Z)) (firstn fb (E r)).
  Proof. reflexivity. Qed.

  Lemma run_reg : forall msg r, length msg = fb -> block_ok bs r -> bytes msg -> exists r', snd (cfb_run (r, []) msg) = (r', []) /\ block_ok bs r'.
  Proof.
    intros msg r Hl Hr Hb. rewrite cfb_run_seg by auto. cbn [snd]. eexists. split; [reflexivity|]. pose proof (HE r Hr) as [Le Lb]. apply shift_ok; auto.
    - destruct enc; auto. rewrite xorl_length, firstn_length. lia.
    - destruct enc; auto. apply xorl_bytes; auto. apply bytes_firstn; auto.
  Qed.
  Lemma segments_spec : forall fuel m reg out inp len, (len <= fuel)%nat -> block_ok bs reg -> bytes (load m inp len) -> regions_ok inp out len ->
    let '(m', reg', out', inp', len') := cfb_segments E bs fb fuel enc m reg out inp len in
    exists k, (k * fb + len' = len)%nat /\ (len' < fb)%nat /\ out' = out + Z.of_nat (k * fb) /\ inp' = inp + Z.of_nat (k * fb) /\
      ceff (reg, []) m m' out inp (k * fb) /\ snd (cfb_run (reg, []) (load m inp (k * fb))) = (reg', []) /\ block_ok bs reg'.
  Proof.
    induction fuel as [|f IH]; intros m reg out inp len Hf Hr Hb Hg.
    - cbn [cfb_segments]. exists 0%nat. cbn [Nat.mul]. rewrite !Z.add_0_r. repeat split; auto; try lia; apply Hr.
    - cbn [cfb_segments]. destruct (Nat.leb_spec fb len) as [Hl|Hl].
      + rewrite transform_is. change 0%nat with (length (@nil Z)).
        assert (Hb1 : bytes (load m inp fb)) by (rewrite <- (load_firstn m inp len fb) by lia; apply bytes_firstn; auto).
        pose proof (chunk_step reg [] m out inp fb Hr ltac:(constructor) ltac:(cbn [length]; lia) ltac:(cbn [length]; lia) Hb1) as X.
        destruct (cfb_combine bs fb enc _ (length []) (load m inp fb)) as [o reg1]. destruct X as (X1 & X2 & X3 & X4).
        destruct (run_reg (load m inp fb) reg (load_length _ _ _) Hr Hb1) as (r' & R1 & R2). rewrite R1 in X2.
        assert (reg1 = r').
        { destruct X2 as (_ & _ & _ & [[Y1 Y2]|(Y1 & Y2 & Y3)]); [cbn [cf_left length] in Y1; lia|exact Y3]. }
        subst r'.
        assert (Li : load (store m out o) (inp + Z.of_nat fb) (len - fb) = load m (inp + Z.of_nat fb) (len - fb)).
        { apply load_store_disjoint. rewrite X3. destruct Hg as [Hg|[Hg|Hg]]; unfold disjoint; lia. }
        assert (Hb2 : bytes (load m (inp + Z.of_nat fb) (len - fb))) by (rewrite <- load_skipn by lia; apply bytes_skipn; auto).
        specialize (IH (store m out o) reg1 (out + Z.of_nat fb) (inp + Z.of_nat fb) (len - fb)%nat ltac:(lia) R2 ltac:(rewrite Li; auto)
                       ltac:(unfold regions_ok in *; lia)).
        destruct (cfb_segments E bs fb f enc (store m out o) reg1 (out + Z.of_nat fb) (inp + Z.of_nat fb) (len - fb)) as [[[[m' reg'] out'] inp'] len'].
        destruct IH as (k & K1 & K2 & K3 & K4 & K5 & K6 & K7). exists (S k). cbn [Nat.mul].
        assert (Hg' : regions_ok inp out (fb + k * fb)) by (unfold regions_ok in *; lia).
        rewrite <- R1 in K5. destruct (ceff_app (reg, []) m _ m' out inp fb (k * fb) X1 K5 Hg') as [Z1 Z2].
        split; [lia|]. split; [lia|]. split; [lia|]. split; [lia|]. split; [exact Z1|]. split; [|exact K7].
        rewrite Z2, R1. exact K6.
      + exists 0%nat. cbn [Nat.mul]. rewrite !Z.add_0_r. repeat split; auto; try lia; apply Hr.
  Qed.

  (** Whole blocks at a time. *)
  Lemma run_blocks : fb = bs -> forall ps r, Forall (block_ok bs) ps -> block_ok bs r ->
    cfb_run (r, []) (concat ps) = (concat (segs E fb r ps), (last (if enc then segs E fb r ps else ps) r, [])).
  Proof.
    intros Ef. induction ps as [|p ps IH]; intros r Hp Hr.
    - unfold segs. destruct enc; reflexivity.
    - pose proof (Forall_inv Hp) as H1. pose proof (Forall_inv_tail Hp) as H2. cbn [concat]. pose proof (HE r Hr) as [Le Lb].
      rewrite cfb_run_app, cfb_run_seg by (auto; destruct H1; lia). 
      rewrite (skipn_all2 (n:=fb) r) by (destruct Hr; lia). cbn [app].
      assert (Hq : block_ok bs (if enc then xorl p (firstn fb (E r)) else p)).
      { destruct enc; auto. apply xorl_block; auto. rewrite firstn_all2 by lia. split; auto. }
      rewrite IH by auto. unfold segs. destruct enc; cbn [cfb_enc_segs cfb_dec_segs concat]; rewrite last_cons;
      rewrite (skipn_all2 (n:=fb) r) by (destruct Hr; lia); reflexivity.
  Qed.
  Lemma last_block : forall n m o cs d, Forall (fun b => length b = bs) cs -> load m o (S n * bs) = concat cs -> load m (o + Z.of_nat (n * bs)) bs = last cs d.
  Proof.
    intros n m o cs d F Y.
    assert (Lc : length cs = S n).
    { assert (H : length (load m o (S n * bs)) = length (concat cs)) by (rewrite Y; reflexivity).
      rewrite load_length in H. rewrite (length_concat_blocks bs) in H by auto. nia. }
    destruct (exists_last (l := cs) ltac:(intros ->; discriminate)) as (l' & z & El). rewrite El in *. rewrite last_last.
    apply Forall_app in F. destruct F as [F1 F2]. apply Forall_inv in F2. rewrite app_length in Lc. cbn [length] in Lc.
    rewrite concat_snoc, load_S_end in Y by lia.
    apply app_inj_length in Y; [apply Y|]. rewrite load_length, (length_concat_blocks bs) by auto. nia.
  Qed.
  Lemma cfb_dec_map : forall n m i reg, block_ok bs reg -> mem_ok m -> cfb_dec_segs E bs reg (blocks bs (load m i (S n * bs))) =
    xorl (E reg) (load m i bs) :: map (fun j => xorl (E (blk bs m i j)) (blk bs m (i + B) j)) (seq 0 n).
  Proof.
    pose proof bs_nz as Hbs. induction n as [|n IH]; intros m i reg Hr Hm; pose proof (HE reg Hr) as [Le Lb].
    - rewrite blocks_load_S by auto. cbn [Nat.mul]. rewrite load_0, blocks_nil by auto. cbn [cfb_dec_segs seq map].
      rewrite firstn_all2, xorl_comm by lia. reflexivity.
    - rewrite blocks_load_S by auto. cbn [cfb_dec_segs]. rewrite firstn_all2 by lia. rewrite (skipn_all2 (n:=bs) reg) by (destruct Hr; lia).
      cbn [app]. rewrite IH by (auto; apply load_block; auto). rewrite seq_shift_map. rewrite xorl_comm. f_equal. f_equal.
      + unfold blk. cbn [Nat.mul Z.of_nat]. rewrite !Z.add_0_r. reflexivity.
      + apply map_ext. intros j. unfold blk. f_equal; [do 2 f_equal|f_equal]; cbn [Nat.mul]; lia.
  Qed.
  Lemma iterate_spec : fb = bs -> forall n m reg out inp, mem_ok m -> block_ok bs reg -> regions_ok inp out (S n * bs) ->
    let '(m', reg') := cfb_iterate E bs enc m reg out inp (S n) in
    ceff (reg, []) m m' out inp (S n * bs) /\ snd (cfb_run (reg, []) (load m inp (S n * bs))) = (reg', []) /\ block_ok bs reg'.
  Proof.
    intros Ef n m reg out inp Hm Hr Hg. pose proof bs_nz as Hbs. pose proof (HE reg Hr) as [Le Lb].
    set (ps := blocks bs (load m inp (S n * bs))).
    assert (Fp : Forall (block_ok bs) ps) by (apply blocks_ok; auto; apply load_bytes; auto).
    assert (Ep : load m inp (S n * bs) = concat ps) by (symmetry; apply concat_blocks; auto; rewrite load_length; apply Nat.mod_mul; auto).
    pose proof (run_blocks Ef ps reg Fp Hr) as RB. rewrite <- Ep in RB.
    unfold ceff. rewrite RB. cbn [fst snd].
    unfold cfb_iterate. cbv zeta. replace (B * (Z.of_nat (S n) - 1)) with (Z.of_nat (n * bs)) by lia.
    replace (S n - 1)%nat with n by lia. rewrite Ef. unfold segs. destruct enc eqn:Een.
    - (* encryption *)
      unfold pax. cbn [is_null loadp]. rewrite (firstn_all2 (n:=bs) reg) by (destruct Hr; lia).
      set (y := xorl (E reg) (load m inp bs)).
      assert (Ly : block_ok bs y) by (apply xorl_block; [split; auto|apply load_block; auto]).
      set (m1 := store m out y).
      assert (Hm1 : mem_ok m1) by (apply store_ok; auto; apply Ly).
      assert (S1 : same_outside m m1 out bs) by (apply store_same_outside'; symmetry; apply Ly).
      assert (L1 : load m1 out bs = y) by (apply load_store_same; symmetry; apply Ly).
      set (m2 := if Nat.ltb 1 (S n) then _ else m1).
      assert (X : load m2 (out + B) (n * bs) = concat (cfb_enc_segs E bs y (blocks bs (load m (inp + B) (n * bs)))) /\ same_outside m1 m2 (out + B) (n * bs)).
      { unfold m2. destruct (Nat.ltb_spec 1 (S n)) as [Hn|Hn].
        - rewrite apb_mem_fst. unfold apb. cbn [bt_reverse bt_counter bt_dontinc bt0 orb is_null].
          destruct (loop_cfb E bs Hbs HE n (n * bs)%nat m1 (inp + B) out ltac:(nia) Hm1 ltac:(unfold regions_ok in *; cbn [Nat.mul] in Hg; lia)) as [I1 I2].
          split; [|exact I2]. etransitivity; [exact I1|]. rewrite L1. do 3 f_equal. eapply load_same; [exact S1|].
          unfold regions_ok in Hg. unfold disjoint. cbn [Nat.mul] in Hg. lia.
        - assert (n = 0)%nat by lia. subst n. cbn [Nat.mul]. rewrite load_0, load_0, blocks_nil by auto. split; [reflexivity|apply same_refl]. }
      destruct X as [X1 X2]. clearbody m2.
      assert (Es : cfb_enc_segs E bs reg ps = y :: cfb_enc_segs E bs y (blocks bs (load m (inp + B) (n * bs)))).
      { unfold ps. rewrite blocks_load_S by auto. cbn [cfb_enc_segs]. rewrite firstn_all2 by lia. rewrite (skipn_all2 (n:=bs) reg) by (destruct Hr; lia).
        rewrite (xorl_comm (load m inp bs)). fold y. reflexivity. }
      assert (Fs : forall qs r, Forall (block_ok bs) qs -> block_ok bs r -> Forall (block_ok bs) (cfb_enc_segs E bs r qs)).
      { clear -HE. induction qs as [|q qs IHq]; intros r Hq Hr'; constructor; pose proof (Forall_inv Hq); pose proof (Forall_inv_tail Hq).
        - apply xorl_block; auto. rewrite firstn_all2 by (destruct (HE r Hr'); lia). apply HE; auto.
        - apply IHq; auto. rewrite (skipn_all2 (n:=bs) r) by (destruct Hr'; lia). cbn [app]. apply xorl_block; auto. rewrite firstn_all2 by (destruct (HE r Hr'); lia). apply HE; auto. }
      assert (Y : load m2 out (S n * bs) = concat (cfb_enc_segs E bs reg ps)).
      { rewrite Es, load_S by auto. cbn [concat]. f_equal; [|exact X1]. rewrite <- L1. eapply load_same; [exact X2|]. right. lia. }
      split; [split; [exact Y|]|].
      { eapply same_trans; [eapply same_weaken; [exact S1|lia|cbn [Nat.mul]; lia]|eapply same_weaken; [exact X2|lia|cbn [Nat.mul]; lia]]. }
      rewrite (last_block n m2 out _ reg (ok_lengths bs _ (Fs ps reg Fp Hr)) Y). split; [reflexivity|]. apply last_ok; auto.
    - (* decryption *)
      set (m1 := if Nat.ltb 1 (S n) then _ else m).
      assert (X : load m1 (out + B) (n * bs) = concat (map (fun j => xorl (E (blk bs m inp j)) (blk bs m (inp + B) j)) (seq 0 n)) /\ same_outside m m1 (out + B) (n * bs)).
      { unfold m1. destruct (Nat.ltb_spec 1 (S n)) as [Hn|Hn].
        - rewrite apb_mem_fst. unfold apb. cbn [bt_reverse bt_counter bt_dontinc bt_rev orb is_null padd].
          apply (loop_rev E bs Hbs HE n (n * bs)%nat m inp (inp + B) (out + B)); auto; [nia|].
          intros j k Hj. unfold regions_ok in Hg. unfold disjoint.
          assert (A : (S j * bs <= k * bs)%nat) by (apply Nat.mul_le_mono_r; lia).
          assert (A' : (S k * bs <= n * bs)%nat) by (apply Nat.mul_le_mono_r; lia). cbn [Nat.mul] in A, A', Hg. lia.
        - assert (n = 0)%nat by lia. subst n. cbn [Nat.mul]. rewrite load_0. split; [reflexivity|apply same_refl]. }
      destruct X as [X1 X2]. clearbody m1. unfold pax. cbn [is_null loadp]. rewrite (firstn_all2 (n:=bs) reg) by (destruct Hr; lia).
      assert (L : load m1 inp bs = load m inp bs).
      { eapply load_same; [exact X2|]. unfold regions_ok in Hg. unfold disjoint. cbn [Nat.mul] in Hg. lia. }
      rewrite L. set (y := xorl (E reg) (load m inp bs)).
      assert (Ly : block_ok bs y) by (apply xorl_block; [split; auto|apply load_block; auto]).
      split; [split|].
      + rewrite load_S by auto. unfold ps. rewrite cfb_dec_map by auto. cbn [concat]. fold y. f_equal.
        * apply load_store_same. symmetry; apply Ly.
        * rewrite <- X1. apply load_store_disjoint. destruct Ly as [-> _]. left. lia.
      + eapply same_trans; [eapply same_weaken; [exact X2|lia|cbn [Nat.mul]; lia]|].
        eapply same_weaken; [apply store_same_outside'; symmetry; apply Ly|lia|cbn [Nat.mul]; lia].
      + split; [|apply load_block; auto]. f_equal. symmetry. apply load_end; auto.
  Qed.

  Lemma cfb_process_spec : forall aligned s st m out inp len, crep s st -> mem_ok m -> regions_ok inp out len ->
    let '(m', s') := cfb_process E bs fb enc aligned s m out inp len in
    ceff st m m' out inp len /\ crep s' (snd (cfb_run st (load m inp len))).
  Proof.
    intros aligned s [r c] m out inp len Hs Hm Hg. destruct Hs as (Hr & Hc & Hl & Hd). unfold cfb_process.
    (* the leftover part *)
    set (l := if Nat.eqb (cf_left s) 0 then 0%nat else Nat.min (cf_left s) len).
    set (P1 := if Nat.eqb (cf_left s) 0 then (m, cf_reg s) else _).
    assert (X : let '(m1, reg1) := P1 in ceff (r, c) m m1 out inp l /\ mem_ok m1 /\ (l <= len)%nat /\
        crep (mkCF reg1 (cf_left s - l)) (snd (cfb_run (r, c) (load m inp l))) /\ ((l < len)%nat -> (cf_left s - l)%nat = 0%nat)).
    { unfold P1, l. destruct Hd as [[D1 D2]|(D1 & D2 & D3)].
      - rewrite (proj2 (Nat.eqb_neq (cf_left s) 0)) by lia. cbv zeta. rewrite D2. replace (fb - cf_left s)%nat with (length c) by lia.
        set (k := Nat.min (cf_left s) len).
        pose proof (chunk_step r c m out inp k Hr Hc Hl ltac:(unfold k; lia) ltac:(apply load_bytes; auto)) as Y.
        destruct (cfb_combine bs fb enc _ (length c) (load m inp k)) as [o rg]. destruct Y as (Y1 & Y2 & Y3 & Y4).
        split; [exact Y1|]. split; [apply store_ok; auto|]. split; [unfold k; lia|]. rewrite D1. split; [exact Y2|unfold k; lia].
      - rewrite D2. cbn [Nat.eqb]. split; [apply ceff_0|]. split; [auto|]. split; [lia|]. split; [|lia].
        rewrite load_0. cbn [cfb_run snd]. subst c. split; auto. split; auto. }
    destruct P1 as [m1 reg1]. destruct X as (X1 & X2 & X3 & X4 & X5). cbv zeta.
    destruct (Nat.eqb_spec (len - l) 0) as [H0|H0].
    { replace len with l by lia. split; auto. }
    assert (Z0 : (cf_left s - l)%nat = 0%nat) by (apply X5; lia). rewrite Z0 in *.
    set (st1 := snd (cfb_run (r, c) (load m inp l))) in *.
    assert (Es : exists r1, st1 = (r1, []) /\ reg1 = r1 /\ block_ok bs r1).
    { destruct st1 as [r1 c1]. destruct X4 as (Q1 & Q2 & Q3 & [[Q4 Q5]|(Q4 & Q5 & Q6)]); cbn [cf_left cf_reg] in *; [lia|]. subst c1. exists r1. auto. }
    destruct Es as (r1 & Es & -> & Hr1).
    (* it is enough to treat the rest from a segment boundary *)
    assert (Rest : forall m2 s2, ceff (r1, []) m1 m2 (out + Z.of_nat l) (inp + Z.of_nat l) (len - l) ->
       crep s2 (snd (cfb_run (r1, []) (load m1 (inp + Z.of_nat l) (len - l)))) ->
       ceff (r, c) m m2 out inp len /\ crep s2 (snd (cfb_run (r, c) (load m inp len)))).
    { intros m2 s2 Q1 Q2. fold st1 in X1. rewrite <- Es in Q1, Q2. unfold st1 in Q1, Q2.
      assert (Hg' : regions_ok inp out (l + (len - l))) by (unfold regions_ok in *; lia).
      destruct (ceff_app (r, c) m m1 m2 out inp l (len - l) X1 Q1 Hg') as [W1 W2].
      replace (l + (len - l))%nat with len in * by lia. split; auto. rewrite W2. exact Q2. }
    clearbody st1 l. clear X1 X4 X5 Hd.
    set (out1 := out + Z.of_nat l) in *. set (inp1 := inp + Z.of_nat l) in *. set (len1 := (len - l)%nat) in *.
    assert (Hg1 : regions_ok inp1 out1 len1) by (unfold regions_ok, inp1, out1, len1 in *; lia).
    clearbody out1 inp1 len1.
    set (P2 := if Nat.eqb fb bs && Nat.leb fb len1 && aligned then _ else _).
    assert (X : let '(m2, reg2, out2, inp2, len2) := P2 in exists k, (k + len2 = len1)%nat /\ out2 = out1 + Z.of_nat k /\ inp2 = inp1 + Z.of_nat k /\
        ceff (r1, []) m1 m2 out1 inp1 k /\ snd (cfb_run (r1, []) (load m1 inp1 k)) = (reg2, []) /\ block_ok bs reg2).
    { unfold P2. destruct (Nat.eqb fb bs && Nat.leb fb len1 && aligned) eqn:Ec.
      - apply andb_prop in Ec. destruct Ec as [Ec _]. apply andb_prop in Ec. destruct Ec as [Ec1 Ec2]. apply Nat.eqb_eq in Ec1. apply Nat.leb_le in Ec2.
        assert (Hq : exists q, (len1 / fb = S q)%nat) by (exists (len1 / fb - 1)%nat; assert (1 <= len1 / fb)%nat by (apply Nat.div_le_lower_bound; lia); lia).
        destruct Hq as [q Hq]. rewrite Hq.
        pose proof (Nat.div_mod len1 fb ltac:(lia)) as Dm. rewrite Hq in Dm. pose proof (Nat.mod_upper_bound len1 fb ltac:(lia)) as Dm'.
        pose proof (iterate_spec Ec1 q m1 r1 out1 inp1 X2 Hr1) as I. rewrite <- Ec1 in I at 1.
        specialize (I ltac:(unfold regions_ok in *; nia)).
        destruct (cfb_iterate E bs enc m1 r1 out1 inp1 (S q)) as [m2 reg2]. destruct I as (I1 & I2 & I3).
        exists (S q * bs)%nat. assert (Eq : (S q * bs = S q * fb)%nat) by (rewrite Ec1; reflexivity).
        replace (len1 - len1 mod fb)%nat with (S q * bs)%nat by lia.
        split; [lia|]. split; [reflexivity|]. split; [reflexivity|]. auto.
      - exists 0%nat. rewrite !Z.add_0_r. split; [lia|]. split; [reflexivity|]. split; [reflexivity|]. split; [apply ceff_0|]. split; auto. }
    destruct P2 as [[[[m2 reg2] out2] inp2] len2]. destruct X as (k & K1 & K2 & K3 & K4 & K5 & K6).
    assert (Hb : bytes (load m2 inp2 len2)).
    { replace (load m2 inp2 len2) with (load m1 inp2 len2); [apply load_bytes; auto|]. symmetry. destruct K4 as [_ K4].
      eapply load_same; [exact K4|]. unfold regions_ok in Hg1. unfold disjoint. lia. }
    assert (Hg2 : regions_ok inp2 out2 len2) by (unfold regions_ok in *; lia).
    pose proof (segments_spec len2 m2 reg2 out2 inp2 len2 (le_n _) K6 Hb Hg2) as Sg.
    destruct (cfb_segments E bs fb len2 enc m2 reg2 out2 inp2 len2) as [[[[m3 reg3] out3] inp3] len3].
    destruct Sg as (j & J1 & J2 & J3 & J4 & J5 & J6 & J7).
    assert (Hg3 : regions_ok inp1 out1 (k + j * fb)) by (unfold regions_ok in *; lia).
    rewrite <- K5, K2, K3 in J5. destruct (ceff_app (r1, []) m1 m2 m3 out1 inp1 k (j * fb) K4 J5 Hg3) as [W1 W2].
    rewrite K5, <- K3, J6 in W2.
    destruct (Nat.ltb_spec 0 len3) as [H3|H3].
    - rewrite transform_is. change 0%nat with (length (@nil Z)).
      assert (Hb3 : bytes (load m3 inp3 len3)).
      { replace (load m3 inp3 len3) with (load m2 inp3 len3).
        - replace (load m2 inp3 len3) with (skipn (j * fb) (load m2 inp2 len2)) by (rewrite load_skipn by lia; rewrite J4; f_equal; lia).
          apply bytes_skipn; auto.
        - symmetry. rewrite K2, K3 in *. destruct J5 as [_ J5]. eapply load_same; [exact J5|]. unfold regions_ok in Hg2. unfold disjoint. lia. }
      pose proof (chunk_step reg3 [] m3 out3 inp3 len3 J7 ltac:(constructor) ltac:(cbn [length]; lia) ltac:(cbn [length]; lia) Hb3) as Y.
      destruct (cfb_combine bs fb enc _ (length []) (load m3 inp3 len3)) as [o rg]. destruct Y as (Y1 & Y2 & Y3 & Y4).
      cbn [length] in Y2. rewrite Nat.sub_0_r in Y2.
      rewrite <- W2 in Y1, Y2. replace out3 with (out1 + Z.of_nat (k + j * fb)) in * by lia. replace inp3 with (inp1 + Z.of_nat (k + j * fb)) in * by lia.
      assert (Hg4 : regions_ok inp1 out1 (k + j * fb + len3)) by (unfold regions_ok in *; lia).
      destruct (ceff_app (r1, []) m1 m3 _ out1 inp1 (k + j * fb) len3 W1 Y1 Hg4) as [V1 V2].
      replace (k + j * fb + len3)%nat with len1 in * by lia. apply Rest; auto. rewrite V2. exact Y2.
    - assert (len3 = 0)%nat by lia. subst len3. replace (k + j * fb)%nat with len1 in * by lia. apply Rest; auto. rewrite W2.
      destruct J7 as [J7 J8]. split; [split; auto|]. split; [constructor|]. split; [cbn [length]; lia|]. right. auto.
  Qed.
  Lemma cfb_resync_rep : forall iv, block_ok bs iv -> crep (cfb_resync E fb iv) (iv, []).
  Proof.
    intros iv Hi. unfold cfb_resync. rewrite transform_is. split; auto. split; [constructor|]. split; [cbn [length]; lia|]. left. cbn [cf_left cf_reg length]. split; [lia|reflexivity].
  Qed.
End Cfb.
