(** OFB and CTR satisfy the laws of the additive cipher template. *)
From Coq Require Import ZArith List Bool Arith Lia.
From Verif Require Import Base Blocks Mem ModesModel ModesSpec ModesProofs.
Import ListNotations.
Local Open Scope Z_scope.

Section Keystream.
  Variable kb : Z -> list Z.
  Variable bs : nat.
  Hypothesis Hbs : bs <> 0%nat.
  Lemma keystream_block : forall i, length (kb i) = bs -> load (keystream kb bs) (i * Z.of_nat bs) bs = kb i.
  Proof.
    intros i L. apply nth_ext with 0 0; [rewrite load_length; auto|]. intros k Hk. rewrite load_length in Hk. rewrite load_nth by auto.
    unfold keystream. rewrite (Z.add_comm (i * _)), Z.div_add, Z.mod_add, Z.div_small, Z.mod_small by lia. rewrite Nat2Z.id, Z.add_0_l. reflexivity.
  Qed.
  Lemma keystream_blocks : forall n i, (forall j, (j < n)%nat -> length (kb (i + Z.of_nat j)) = bs) ->
    load (keystream kb bs) (i * Z.of_nat bs) (n * bs) = concat (map (fun j => kb (i + Z.of_nat j)) (seq 0 n)).
  Proof.
    induction n as [|n IH]; intros i L; [reflexivity|]. cbn [Nat.mul]. rewrite load_app, seq_shift_map. cbn [concat].
    change (Z.of_nat 0) with 0. rewrite Z.add_0_r. rewrite keystream_block by (rewrite <- (L 0%nat) by lia; f_equal; f_equal; lia). f_equal.
    replace (i * Z.of_nat bs + Z.of_nat bs) with ((i + 1) * Z.of_nat bs) by ring. rewrite IH.
    - f_equal. apply map_ext. intros j. f_equal. lia.
    - intros j Hj. rewrite <- (L (S j)) by lia. do 2 f_equal. lia.
  Qed.
End Keystream.

Section Ofb.
  Variable E : list Z -> list Z.
  Variables bs par : nat.
  Hypothesis Hbs : bs <> 0%nat.
  Hypothesis Hpar : par <> 0%nat.
  Hypothesis HE : cipher_ok bs E.
  Notation B := (Z.of_nat bs).
  Definition ofb_prep (reg iv : list Z) (i : Z) : Prop := block_ok bs iv /\ 0 <= i /\ reg = Nat.iter (Z.to_nat i) E iv.
  Lemma iter_ok : forall n b, block_ok bs b -> block_ok bs (Nat.iter n E b).
  Proof. induction n; intros b Hb; [exact Hb|]. change (Nat.iter (S n) E b) with (E (Nat.iter n E b)). apply HE. auto. Qed.
  Lemma iter_add' : forall a b (x : list Z), Nat.iter (a + b) E x = Nat.iter a E (Nat.iter b E x).
  Proof. induction a; intros b x; [reflexivity|]. change (Nat.iter (S a + b) E x) with (E (Nat.iter (a + b) E x)). rewrite IHa. reflexivity. Qed.
  Lemma iter_S_in : forall a (x : list Z), Nat.iter (S a) E x = Nat.iter a E (E x).
  Proof. intros. replace (S a) with (a + 1)%nat by lia. rewrite iter_add'. reflexivity. Qed.

  Lemma ofb_write_spec : forall n reg m a, block_ok bs reg ->
    let '(reg', m') := ofb_write E bs reg m a (S n) in
    reg' = Nat.iter (S n) E reg /\ load m' a (S n * bs) = concat (map (fun j => Nat.iter (S j) E reg) (seq 0 (S n))) /\ same_outside m m' a (S n * bs).
  Proof.
    intros n reg m a Hr. unfold ofb_write. set (m1 := store m a (E reg)).
    assert (Le : block_ok bs (E reg)) by (apply HE; auto).
    assert (S1 : same_outside m m1 a bs) by (apply store_same_outside'; symmetry; apply Le).
    assert (L1 : load m1 a bs = E reg) by (apply load_store_same; symmetry; apply Le).
    replace (S n - 1)%nat with n by lia. replace (B * (Z.of_nat (S n) - 1)) with (Z.of_nat (n * bs)) by lia. rewrite (Nat.mul_comm bs n).
    set (m2 := if Nat.ltb 1 (S n) then _ else m1).
    assert (X : load m2 (a + B) (n * bs) = concat (map (fun j => Nat.iter (S j) E (E reg)) (seq 0 n)) /\ same_outside m1 m2 (a + B) (n * bs)).
    { unfold m2. destruct (Nat.ltb_spec 1 (S n)).
      - rewrite apb_mem_fst. unfold apb. cbn [bt_reverse bt_counter bt_dontinc bt0 orb is_null].
        destruct (loop_ofb E bs Hbs HE n (n * bs)%nat m1 a ltac:(nia) ltac:(rewrite L1; auto)) as [I1 I2]. split; [|exact I2].
        etransitivity; [exact I1|]. rewrite L1. reflexivity.
      - assert (n = 0)%nat by lia. subst n. cbn [Nat.mul]. rewrite load_0. split; [reflexivity|apply same_refl]. }
    destruct X as [X1 X2]. clearbody m2.
    assert (Y : load m2 a (S n * bs) = concat (map (fun j => Nat.iter (S j) E reg) (seq 0 (S n)))).
    { rewrite load_S, seq_shift_map by auto. cbn [concat]. f_equal.
      - change (Nat.iter 1 E reg) with (E reg). rewrite <- L1. eapply load_same; [exact X2|]. right; lia.
      - rewrite X1. f_equal. apply map_ext. intros j. rewrite <- iter_S_in. reflexivity. }
    split; [|split; [exact Y|]].
    - rewrite load_S_end, seq_S, map_app, concat_app in Y by auto. cbn [map concat] in Y. rewrite app_nil_r in Y.
      apply app_inj_length in Y; [apply Y|]. rewrite load_length. rewrite (length_concat_blocks bs).
      + rewrite map_length, seq_length. lia.
      + apply Forall_map. apply Forall_forall. intros j _. apply iter_ok; auto.
    - eapply same_trans; [eapply same_weaken; [exact S1|lia|cbn [Nat.mul]; lia]|eapply same_weaken; [exact X2|lia|cbn [Nat.mul]; lia]].
  Qed.
  Theorem ofb_law : policy_law (ofb_policy E bs par) (ofb_block E) (fun _ => True) ofb_prep.
  Proof.
    constructor; cbn [ofb_policy pl_bpi pl_iters pl_write pl_can pl_operate pl_ivsize pl_resync pl_seek]; auto; try discriminate.
    - intros p iv i m a n (H1 & H2 & ->) Hi Hn. destruct n as [|n]; [congruence|].
      pose proof (ofb_write_spec n (Nat.iter (Z.to_nat i) E iv) m a ltac:(apply iter_ok; auto)) as X.
      destruct (ofb_write E bs _ m a (S n)) as [p' m']. destruct X as (X1 & X2 & X3). split; [|split; [|exact X3]].
      + split; auto. split; [lia|]. rewrite X1, <- iter_add'. f_equal. lia.
      + rewrite X2. rewrite keystream_blocks; auto.
        * f_equal. apply map_ext. intros j. unfold ofb_block. rewrite <- iter_add'. f_equal. lia.
        * intros j Hj. apply iter_ok. auto.
    - intros p iv _ L Hb. split; [split; auto|]. split; [lia|reflexivity].
  Qed.
End Ofb.

Lemma div256 : forall a b, 0 <= a < 256 -> (a + b * 256) / 256 = b.
Proof. intros. rewrite Z.div_add, Z.div_small by lia. lia. Qed.
Lemma mod256 : forall a b, 0 <= a < 256 -> (a + b * 256) mod 256 = a.
Proof. intros. rewrite Z.mod_add, Z.mod_small by lia. lia. Qed.
Lemma be_bytes_snoc : forall k v, be_bytes (S k) v = be_bytes k (v / 256) ++ [v mod 256].
Proof. intros. unfold be_bytes. rewrite le_bytes_S. reflexivity. Qed.
Lemma upd_app_last : forall (l : list Z) x y t k, length l = k -> upd k y (l ++ x :: t) = l ++ y :: t.
Proof. induction l; intros x y t k <-; [reflexivity|]. cbn [length app upd]. f_equal. apply IHl. reflexivity. Qed.
Lemma nth_app_last : forall (l : list Z) x t k d, length l = k -> nth k (l ++ x :: t) d = x.
Proof. intros l x t k d <-. rewrite app_nth2, Nat.sub_diag by lia. reflexivity. Qed.
Lemma inc_counter_spec : forall k v t, inc_counter (be_bytes k v ++ t) k = be_bytes k (v + 1) ++ t.
Proof.
  induction k as [|k IH]; intros v t; [reflexivity|]. rewrite !be_bytes_snoc, <- !app_assoc. cbn [app inc_counter].
  rewrite nth_app_last by apply be_bytes_length. rewrite upd_app_last by apply be_bytes_length.
  assert (Em : (v mod 256 + 1) mod 256 = (v + 1) mod 256) by (rewrite Z.add_mod_idemp_l by lia; reflexivity).
  rewrite Em. destruct (Z.eqb_spec ((v + 1) mod 256) 0) as [H0|H0].
  - rewrite IH, H0. f_equal. f_equal. pose proof (Z.div_mod v 256). pose proof (Z.div_mod (v + 1) 256). pose proof (Z.mod_pos_bound v 256). lia.
  - replace ((v + 1) / 256) with (v / 256); [reflexivity|].
    pose proof (Z.div_mod v 256). pose proof (Z.div_mod (v + 1) 256). pose proof (Z.mod_pos_bound v 256). pose proof (Z.mod_pos_bound (v + 1) 256). lia.
Qed.
Lemma ctr_seek_spec : forall i reg cnt carry arr, bytes reg -> (i <= length reg)%nat -> (i <= length arr)%nat -> 0 <= cnt -> 0 <= carry ->
  ctr_seek_loop reg i cnt carry arr = be_bytes i (be_val (firstn i reg) + cnt + carry) ++ skipn i arr.
Proof.
  induction i as [|i IH]; intros reg cnt carry arr Hb Hl Ha Hc Hy; [reflexivity|]. cbn [ctr_seek_loop].
  set (x := nth i reg 0).
  assert (Hx : byte x). { unfold x. unfold bytes in Hb. rewrite Forall_forall in Hb. apply Hb, nth_In. lia. }
  unfold byte in Hx. pose proof (Z.mod_pos_bound cnt 256).
  rewrite IH; auto; try lia; [|rewrite upd_length; lia|apply Z.shiftr_nonneg; lia|apply Z.shiftr_nonneg; lia].
  rewrite (firstn_S_nth i 0) by lia. fold x. rewrite be_val_app. cbn [length]. change (Z.of_nat 1) with 1.
  replace (be_val [x]) with x by (unfold be_val; cbn [fold_left]; lia). rewrite Z.pow_1_r.
  rewrite be_bytes_snoc, <- app_assoc. cbn [app]. rewrite (upd_split i) by lia. rewrite skipn_app_ge by (rewrite firstn_length; lia).
  rewrite firstn_length, Nat.min_l by lia. rewrite Nat.sub_diag, skipn_O, land_255, !Z.shiftr_div_pow2 by lia. change (2 ^ 8) with 256.
  set (bv := be_val (firstn i reg)).
  pose proof (Z.div_mod cnt 256). pose proof (Z.div_mod (x + cnt mod 256 + carry) 256). pose proof (Z.mod_pos_bound (x + cnt mod 256 + carry) 256).
  f_equal; [f_equal|f_equal].
  - apply (Z.div_unique _ _ _ ((x + cnt mod 256 + carry) mod 256)); lia.
  - apply (Z.mod_unique _ _ (bv + cnt / 256 + (x + cnt mod 256 + carry) / 256)); lia.
Qed.

Section Ctr.
  Variable E : list Z -> list Z.
  Variables bs par : nat.
  Hypothesis Hbs : bs <> 0%nat.
  Hypothesis Hpar : par <> 0%nat.
  Hypothesis HE : cipher_ok bs E.
  Notation B := (Z.of_nat bs).
  Lemma be_ok : forall v, block_ok bs (be_bytes bs v).
  Proof. intros; split; [apply be_bytes_length|apply be_bytes_bytes]. Qed.

  (** What the loop does to the output block by block; [x] is null or points to the message. *)
  Definition ctr_out (m : mem) (x : ptr) (blk : list Z) (n : nat) (l : list Z) : list Z :=
    match x with PMem a => xorl (load m a n) l | _ => l end.
  Definition xok (x : ptr) (o : Z) (n : nat) : Prop := match x with PMem a => regions_ok a o n | PNull => True | PReg _ => False end.

  Lemma loop_ctr : forall n f m x o init lsb, (n <= f)%nat -> bytes init -> (S (length init) = bs)%nat -> 0 <= lsb -> lsb + Z.of_nat n <= 256 -> (lsb < 256) ->
    xok x o (n * bs) ->
    exists m', apb_loop E bs f m (PReg (init ++ [lsb])) x o (n * bs) bt_ctr 0 (if is_null x then 0 else B) B =
      (m', PReg (init ++ [(lsb + Z.of_nat n) mod 256]), 0%nat) /\
    load m' o (n * bs) = ctr_out m x [] (n * bs) (concat (map (fun j => E (init ++ [lsb + Z.of_nat j])) (seq 0 n))) /\ same_outside m m' o (n * bs).
  Proof.
    induction n as [|n IH]; intros f m x o init lsb Hf Hb Hl H0 H1 H2 Hx.
    - cbn [Nat.mul]. rewrite loop_0 by auto. exists m. rewrite Z.add_0_r, Z.mod_small by lia. split; [reflexivity|]. split; [|apply same_refl].
      rewrite load_0. unfold ctr_out. destruct x; reflexivity.
    - destruct f as [|f]; [lia|]. cbn [apb_loop]. rewrite (proj2 (Nat.leb_le bs (S n * bs))) by (cbn [Nat.mul]; lia).
      cbn [bt_counter bt_xorin bt_ctr]. rewrite andb_false_r.
      replace (S n * bs - bs)%nat with (n * bs)%nat by (cbn [Nat.mul]; lia).
      assert (Hi : inc_last (init ++ [lsb]) = init ++ [(lsb + 1) mod 256]).
      { unfold inc_last. destruct (init ++ [lsb]) eqn:Ee; [destruct init; discriminate|]. rewrite <- Ee. rewrite app_length. cbn [length].
        replace (length init + 1 - 1)%nat with (length init) by lia. rewrite nth_app_last, upd_app_last by auto. reflexivity. }
      rewrite Hi. cbn [padd]. change (0 =? 0) with true. cbv iota.
      assert (Hblk : block_ok bs (init ++ [lsb])).
      { split; [rewrite app_length; cbn [length]; lia|]. apply bytes_app. split; auto. repeat constructor; lia. }
      set (m1 := pax E bs m (PReg (init ++ [lsb])) x o).
      assert (Lb : block_ok bs (E (init ++ [lsb]))) by (apply HE; auto).
      assert (X : load m1 o bs = ctr_out m x [] bs (E (init ++ [lsb])) /\ same_outside m m1 o bs).
      { unfold m1, pax, ctr_out. destruct x as [|a|v]; cbn [is_null loadp]; rewrite ?firstn_all2 by (destruct Hblk; lia).
        - split; [apply load_store_same; symmetry; apply Lb|apply store_same_outside'; symmetry; apply Lb].
        - assert (Lz : length (xorl (E (init ++ [lsb])) (load m a bs)) = bs) by (rewrite xorl_length, load_length; destruct Lb; lia).
          split; [rewrite load_store_same by auto; apply xorl_comm|apply store_same_outside'; auto].
        - destruct Hx. }
      destruct X as [X1 X2].
      destruct (Z.eq_dec (lsb + 1) 256) as [Hw|Hw].
      + assert (n = 0)%nat by lia. subst n. cbn [Nat.mul]. rewrite loop_0 by auto. exists m1. rewrite Nat.add_0_r.
        change (Z.of_nat 1) with 1. split; [reflexivity|]. split; [|exact X2].
        rewrite X1. cbn [seq map concat]. change (Z.of_nat 0) with 0. rewrite app_nil_r, Z.add_0_r. reflexivity.
      + rewrite (Z.mod_small (lsb + 1)) by lia.
        assert (Hx' : xok (if is_null x then x else padd x B) (o + B) (n * bs)).
        { destruct x; cbn [is_null padd xok] in *; auto; [|destruct Hx]. unfold regions_ok in *. cbn [Nat.mul] in Hx. lia. }
        assert (Ex : padd x (if is_null x then 0 else B) = if is_null x then x else padd x B) by (destruct x; reflexivity).
        assert (En : is_null (if is_null x then x else padd x B) = is_null x) by (destruct x; cbn [is_null padd xok] in *; auto; destruct Hx).
        destruct (IH f m1 (if is_null x then x else padd x B) (o + B) init (lsb + 1) ltac:(lia) Hb Hl ltac:(lia) ltac:(lia) ltac:(lia) Hx') as (m' & I1 & I2 & I3).
        rewrite En in I1. rewrite Ex, I1. exists m'. split; [replace (lsb + Z.of_nat (S n)) with (lsb + 1 + Z.of_nat n) by lia; reflexivity|]. split.
        * rewrite load_S by auto. rewrite seq_shift_map. cbn [concat]. change (Z.of_nat 0) with 0. rewrite Z.add_0_r.
          assert (Em : map (fun j => E (init ++ [lsb + Z.of_nat (S j)])) (seq 0 n) = map (fun j => E (init ++ [lsb + 1 + Z.of_nat j])) (seq 0 n)).
          { apply map_ext. intros j. do 3 f_equal. lia. }
          rewrite Em, I2. set (T := concat _).
          replace (load m' o bs) with (load m1 o bs) by (symmetry; eapply load_same; [exact I3|]; right; lia). rewrite X1.
          destruct x as [|a|v]; cbn [ctr_out is_null padd]; auto; [|destruct Hx].
          rewrite load_S by auto. rewrite xorl_app by (rewrite load_length; symmetry; apply Lb). f_equal. f_equal.
          eapply load_same; [exact X2|]. cbn [xok] in Hx. unfold regions_ok in Hx. unfold disjoint. cbn [Nat.mul] in Hx. lia.
        * eapply same_trans; [eapply same_weaken; [exact X2|lia|cbn [Nat.mul]; lia]|eapply same_weaken; [exact I3|lia|cbn [Nat.mul]; lia]].
  Qed.

  Lemma ctr_operate_spec : forall f n v m out x, (n <= f)%nat -> 0 <= v -> xok x out (n * bs) ->
    let '(c', m') := ctr_operate E bs f (be_bytes bs v) m out x n in
    c' = be_bytes bs (v + Z.of_nat n) /\
    load m' out (n * bs) = ctr_out m x [] (n * bs) (concat (map (fun j => E (be_bytes bs (v + Z.of_nat j))) (seq 0 n))) /\ same_outside m m' out (n * bs).
  Proof.
    induction f as [|f IH]; intros n v m out x Hf Hv Hx.
    - assert (n = 0)%nat by lia. subst n. cbn [ctr_operate Nat.mul]. rewrite Z.add_0_r. split; [reflexivity|]. split; [|apply same_refl].
      destruct x; reflexivity.
    - cbn [ctr_operate]. destruct (Nat.eqb_spec n 0) as [->|Hn].
      { cbn [Nat.mul]. rewrite Z.add_0_r. split; [reflexivity|]. split; [|apply same_refl]. destruct x; reflexivity. }
      assert (Eb : exists k, bs = S k) by (destruct bs; [lia|eauto]). destruct Eb as [k Ek].
      assert (Es : forall w, be_bytes bs w = be_bytes k (w / 256) ++ [w mod 256]) by (intros w; rewrite Ek at 1; apply be_bytes_snoc).
      replace (bs - 1)%nat with k by lia. rewrite (Es v). rewrite nth_app_last by apply be_bytes_length.
      set (lsb := v mod 256). set (init := be_bytes k (v / 256)).
      assert (Hlsb : 0 <= lsb < 256) by (apply Z.mod_pos_bound; lia).
      set (q := Nat.min n (Z.to_nat (256 - lsb))).
      assert (Hq : (0 < q)%nat /\ (q <= n)%nat /\ lsb + Z.of_nat q <= 256) by (unfold q; lia).
      unfold apb. cbn [bt_reverse bt_counter bt_dontinc bt_ctr orb].
      assert (Hxq : xok x out (q * bs)).
      { destruct x; cbn [xok] in *; auto; assert (q * bs <= n * bs)%nat by (apply Nat.mul_le_mono_r; lia). unfold regions_ok in *. lia. }
      destruct (loop_ctr q (q * bs)%nat m x out init lsb ltac:(nia) ltac:(apply be_bytes_bytes) ltac:(unfold init; rewrite be_bytes_length; lia) ltac:(lia) ltac:(lia) ltac:(lia) Hxq)
        as (m1 & A1 & A2 & A3).
      rewrite A1. rewrite upd_app_last by apply be_bytes_length.
      assert (Ec : (if (lsb + Z.of_nat q) mod 256 =? 0 then inc_counter (init ++ [(lsb + Z.of_nat q) mod 256]) k else init ++ [(lsb + Z.of_nat q) mod 256]) = be_bytes bs (v + Z.of_nat q)).
      { rewrite (Es (v + Z.of_nat q)). unfold init. pose proof (Z.div_mod v 256 ltac:(lia)) as Dv. fold lsb in Dv.
        destruct (Z.eq_dec (lsb + Z.of_nat q) 256) as [H6|H6].
        - rewrite H6. change (256 mod 256) with 0. change (0 =? 0) with true. cbv iota. rewrite inc_counter_spec.
          replace (v + Z.of_nat q) with ((v / 256 + 1) * 256) by lia. rewrite Z.div_mul, Z.mod_mul by lia. reflexivity.
        - rewrite Z.mod_small by lia. destruct (Z.eqb_spec (lsb + Z.of_nat q) 0); [lia|].
          replace (v + Z.of_nat q) with (lsb + Z.of_nat q + (v / 256) * 256) by lia. rewrite div256, mod256 by lia.
          reflexivity. }
      rewrite Ec.
      set (x' := if is_null x then x else padd x (Z.of_nat (q * bs))).
      assert (Hx' : xok x' (out + Z.of_nat (q * bs)) ((n - q) * bs)).
      { unfold x'. destruct x; cbn [is_null padd xok] in *; auto; [|destruct Hx]. assert (n * bs = q * bs + (n - q) * bs)%nat by (rewrite <- Nat.mul_add_distr_r; f_equal; lia). unfold regions_ok in *. lia. }
      specialize (IH (n - q)%nat (v + Z.of_nat q) m1 (out + Z.of_nat (q * bs)) x' ltac:(lia) ltac:(lia) Hx').
      destruct (ctr_operate E bs f (be_bytes bs (v + Z.of_nat q)) m1 (out + Z.of_nat (q * bs)) x' (n - q)) as [c' m'].
      destruct IH as (I1 & I2 & I3). split; [rewrite I1; f_equal; lia|].
      assert (En : (n * bs = q * bs + (n - q) * bs)%nat) by (rewrite <- Nat.mul_add_distr_r; f_equal; lia).
      rewrite En. split.
      + rewrite load_app. replace (seq 0 n) with (seq 0 q ++ seq q (n - q)) by (rewrite <- seq_app; f_equal; lia).
        rewrite map_app, concat_app.
        assert (M1 : map (fun j => E (be_bytes bs (v + Z.of_nat j))) (seq 0 q) = map (fun j => E (init ++ [lsb + Z.of_nat j])) (seq 0 q)).
        { apply map_ext_in. intros j Hj. apply in_seq in Hj. f_equal. rewrite Es. pose proof (Z.div_mod v 256 ltac:(lia)) as Dv. fold lsb in Dv.
          replace (v + Z.of_nat j) with (lsb + Z.of_nat j + (v / 256) * 256) by lia. rewrite div256, mod256 by lia. reflexivity. }
        assert (M2 : map (fun j => E (be_bytes bs (v + Z.of_nat j))) (seq q (n - q)) = map (fun j => E (be_bytes bs (v + Z.of_nat q + Z.of_nat j))) (seq 0 (n - q))).
        { replace (seq q (n - q)) with (map (fun j => (q + j)%nat) (seq 0 (n - q))).
          - rewrite map_map. apply map_ext. intros j. do 2 f_equal. lia.
          - clear. generalize (n - q)%nat. intros k. apply nth_ext with 0%nat 0%nat; rewrite ?map_length, ?seq_length; auto.
            intros i Hi. rewrite (nth_indep _ 0%nat (q + 0)%nat) by (rewrite map_length, seq_length; auto).
            rewrite (map_nth (fun j => (q + j)%nat)), !seq_nth by auto. lia. }
        rewrite M1, M2, I2. set (T1 := concat (map _ (seq 0 q))) in *. set (T2 := concat _) in *.
        replace (load m' out (q * bs)) with (load m1 out (q * bs)) by (symmetry; eapply load_same; [exact I3|]; right; lia).
        rewrite A2. unfold x'. destruct x as [|a|w]; cbn [ctr_out is_null padd]; auto; [|destruct Hx].
        rewrite load_app. rewrite xorl_app.
        * f_equal. f_equal. eapply load_same; [exact A3|]. cbn [xok] in Hx. rewrite En in Hx. unfold regions_ok in Hx. unfold disjoint. lia.
        * rewrite load_length. unfold T1. rewrite (length_concat_blocks bs); [rewrite map_length, seq_length; lia|].
          apply Forall_map, Forall_forall. intros j Hj. apply in_seq in Hj. apply HE. split; [rewrite app_length; unfold init; rewrite be_bytes_length; cbn [length]; lia|].
          apply bytes_app. split; [apply be_bytes_bytes|]. repeat constructor; lia.
      + clear -A3 I3. revert A3 I3. generalize (q * bs)%nat ((n - q) * bs)%nat. intros a b A3 I3.
        eapply same_trans; [eapply same_weaken; [exact A3|lia|lia]|eapply same_weaken; [exact I3|lia|lia]].
  Qed.

  Definition ctr_prep (s : ctr) (iv : list Z) (i : Z) : Prop :=
    block_ok bs iv /\ 0 <= i /\ ct_reg s = iv /\ ct_counter s = be_bytes bs (be_val iv + i).
  Theorem ctr_law : policy_law (ctr_policy E bs par) (ctr_block E bs) (fun _ => True) ctr_prep.
  Proof.
    assert (K : forall iv i n, load (keystream (ctr_block E bs iv) bs) (i * Z.of_nat bs) (n * bs) = concat (map (fun j => E (be_bytes bs (be_val iv + i + Z.of_nat j))) (seq 0 n))).
    { intros iv i n. rewrite keystream_blocks; auto.
      - f_equal. apply map_ext. intros j. unfold ctr_block. do 2 f_equal. lia.
      - intros j _. apply HE, be_ok. }
    constructor; cbn [ctr_policy pl_bpi pl_iters pl_write pl_can pl_operate pl_ivsize pl_resync pl_seek]; auto; try discriminate.
    - intros p iv i m a n (H1 & H2 & H3 & H4) Hi Hn. rewrite H4. pose proof (be_val_bounds iv (proj2 H1)) as Hbv.
      pose proof (ctr_operate_spec n n (be_val iv + i) m a PNull (le_n _) ltac:(lia) I) as X.
      destruct (ctr_operate E bs n (be_bytes bs (be_val iv + i)) m a PNull n) as [c m']. destruct X as (X1 & X2 & X3). split; [|split; [|exact X3]].
      + split; auto. split; [lia|]. split; auto. cbn [ct_counter]. rewrite X1. f_equal. lia.
      + rewrite X2, K. reflexivity.
    - intros _ p iv i m out inp n (H1 & H2 & H3 & H4) Hi Hn Hg. rewrite H4. pose proof (be_val_bounds iv (proj2 H1)) as Hbv.
      pose proof (ctr_operate_spec n n (be_val iv + i) m out (PMem inp) (le_n _) ltac:(lia) Hg) as X.
      destruct (ctr_operate E bs n (be_bytes bs (be_val iv + i)) m out (PMem inp) n) as [c m']. destruct X as (X1 & X2 & X3). split; [|split; [|exact X3]].
      + split; auto. split; [lia|]. split; auto. cbn [ct_counter]. rewrite X1. f_equal. lia.
      + rewrite X2, K. reflexivity.
    - intros p iv _ L Hb. split; [split; auto|]. split; [lia|]. split; [reflexivity|]. cbn [ct_counter]. rewrite Z.add_0_r, <- L. symmetry. apply be_bytes_val; auto.
    - intros sk p iv i j Es (H1 & H2 & H3 & H4) Hj. injection Es as <-. unfold ctr_seek. split; auto. split; auto. split; auto. cbn [ct_counter].
      rewrite H3, H4. destruct H1 as [L1 L2]. rewrite ctr_seek_spec by (auto; rewrite ?be_bytes_length; lia).
      rewrite (firstn_all2 iv) by lia. rewrite Z.add_0_r. rewrite (skipn_all2 (be_bytes _ _)) by (rewrite be_bytes_length; lia). rewrite app_nil_r. reflexivity.
  Qed.
End Ctr.
