(** Proofs about buffered filters. *)
From Coq Require Import ZArith List Bool Arith Lia.
From Verif Require Import Base Blocks HashModel FilterModel FilterSpec.
Import ListNotations.
Local Open Scope nat_scope.

(* -------------------------------------------------------------------- the circular queue *)

Lemma nth_write : forall (d buf : list Z) o j, o + length d <= length buf ->
  nth j (write o d buf) 0%Z = if (o <=? j) && (j <? o + length d) then nth (j - o) d 0%Z else nth j buf 0%Z.
Proof.
  intros d buf o j H. unfold write. assert (L : length (firstn o buf) = o) by (rewrite firstn_length; lia).
  destruct (Nat.leb_spec o j) as [H1|H1]; cbn [andb].
  - rewrite app_nth2 by lia. rewrite L. destruct (Nat.ltb_spec j (o + length d)) as [H2|H2].
    + apply app_nth1. lia.
    + rewrite app_nth2 by lia. rewrite nth_skipn_add. f_equal. lia.
  - rewrite app_nth1 by lia. rewrite <- (firstn_skipn o buf) at 2. rewrite app_nth1 by lia. reflexivity.
Qed.
Lemma wrap_mod : forall N x, N <> 0 -> x < 2 * N -> x mod N = if x <? N then x else x - N.
Proof.
  intros N x HN H. destruct (Nat.ltb_spec x N).
  - apply Nat.mod_small. lia.
  - replace x with (x - N + 1 * N) at 1 by lia. rewrite Nat.mod_add by lia. apply Nat.mod_small. lia.
Qed.

Definition cont (q : bq) : list Z := map (fun i => nth ((bq_begin q + i) mod bq_cap q) (bq_buf q) 0%Z) (seq 0 (bq_size q)).
Definition qok (q : bq) : Prop := bq_size q <= bq_cap q /\ (bq_begin q < bq_cap q \/ bq_cap q = 0 /\ bq_begin q = 0).
Definition aligned (q : bq) : Prop := bq_begin q mod bq_bs q = 0 /\ bq_cap q mod bq_bs q = 0.

Lemma cont_length : forall q, length (cont q) = bq_size q.
Proof. intros. unfold cont. rewrite map_length, seq_length. reflexivity. Qed.
Lemma cont_nth : forall q i, i < bq_size q -> nth i (cont q) 0%Z = nth ((bq_begin q + i) mod bq_cap q) (bq_buf q) 0%Z.
Proof.
  intros q i H. unfold cont. rewrite (nth_indep _ 0%Z (nth ((bq_begin q + 0) mod bq_cap q) (bq_buf q) 0%Z)) by (rewrite map_length, seq_length; lia).
  rewrite (map_nth (fun i => nth ((bq_begin q + i) mod bq_cap q) (bq_buf q) 0%Z)). rewrite seq_nth by lia. reflexivity.
Qed.
Lemma list_ext : forall (a b : list Z), length a = length b -> (forall i, i < length a -> nth i a 0%Z = nth i b 0%Z) -> a = b.
Proof. intros. eapply nth_ext; eauto. Qed.
Lemma slice_cont : forall q k, qok q -> k <= bq_size q -> bq_begin q + k <= bq_cap q -> firstn k (skipn (bq_begin q) (bq_buf q)) = firstn k (cont q).
Proof.
  intros q k [H1 H2] Hk Hb. unfold bq_cap in *. apply list_ext.
  - rewrite !firstn_length, skipn_length, cont_length. lia.
  - intros i Hi. rewrite firstn_length, skipn_length in Hi. rewrite !nth_firstn_lt, nth_skipn_add, cont_nth by lia.
    unfold bq_cap. rewrite Nat.mod_small by lia. reflexivity.
Qed.
Lemma cont_drop : forall q q' k, qok q -> k <= bq_size q -> bq_buf q' = bq_buf q -> bq_size q' = bq_size q - k ->
  (bq_size q' = 0 \/ bq_begin q' = (bq_begin q + k) mod bq_cap q) -> cont q' = skipn k (cont q).
Proof.
  intros q q' k [H1 H2] Hk Hb Hs Hg. apply list_ext.
  - rewrite skipn_length, !cont_length. lia.
  - intros i Hi. rewrite cont_length in Hi. destruct Hg as [Hg|Hg]; [lia|]. rewrite nth_skipn_add, !cont_nth by lia. unfold bq_cap in *. rewrite Hb, Hg.
    f_equal. rewrite Nat.add_mod_idemp_l by lia. f_equal. lia.
Qed.

Lemma reset_ok : forall bs max, bs <> 0 -> qok (bq_reset bs max) /\ aligned (bq_reset bs max) /\ cont (bq_reset bs max) = [] /\ bq_cap (bq_reset bs max) = bs * max.
Proof.
  intros bs max Hb. unfold qok, aligned, bq_cap, bq_reset. cbn [bq_size bq_begin bq_bs bq_buf]. rewrite repeat_length. repeat split; try lia.
  - apply Nat.mod_0_l; auto.
  - rewrite Nat.mul_comm. apply Nat.mod_mul. auto.
Qed.

Lemma get_block_spec : forall q, qok q -> aligned q -> bq_bs q <> 0 -> bq_bs q <= bq_size q ->
  exists d q', bq_get_block q = (Some d, q') /\ cont q = d ++ cont q' /\ length d = bq_bs q /\ qok q' /\ aligned q' /\
    bq_cap q' = bq_cap q /\ bq_bs q' = bq_bs q /\ bq_size q' = bq_size q - bq_bs q.
Proof.
  intros q Hq [A1 A2] Hb Hs. pose proof Hq as [H1 H2]. unfold bq_get_block. rewrite (proj2 (Nat.leb_le _ _) Hs). eexists _, _. split; [reflexivity|].
  assert (Hn : bq_begin q + bq_bs q <= bq_cap q).
  { destruct H2 as [H2|H2]; [|lia]. apply Nat.mod_divides in A1; auto. apply Nat.mod_divides in A2; auto. destruct A1 as [x Hx], A2 as [y Hy]. rewrite Hx, Hy in *.
    assert (x < y) by (apply (Nat.mul_lt_mono_pos_l (bq_bs q)); lia). replace (bq_bs q * x + bq_bs q) with (bq_bs q * S x) by lia. apply Nat.mul_le_mono_l. lia. }
  set (q' := mkBQ _ _ _ _ _).
  assert (Hd : cont q' = skipn (bq_bs q) (cont q)).
  { apply cont_drop; auto. right. unfold q'. cbn [bq_begin]. destruct (Nat.eqb_spec (bq_begin q + bq_bs q) (bq_cap q)) as [E|E].
    - rewrite E. rewrite Nat.mod_same; lia.
    - rewrite Nat.mod_small; lia. }
  rewrite slice_cont by (auto; lia). rewrite Hd. repeat split.
  - rewrite firstn_skipn. reflexivity.
  - rewrite firstn_length, cont_length. lia.
  - unfold q', bq_cap. cbn [bq_size bq_buf]. unfold bq_cap in H1. lia.
  - unfold q', bq_cap. cbn [bq_begin bq_buf]. fold (bq_cap q). destruct (Nat.eqb_spec (bq_begin q + bq_bs q) (bq_cap q)); lia.
  - unfold q'. cbn [bq_begin bq_bs]. destruct (Nat.eqb_spec (bq_begin q + bq_bs q) (bq_cap q)); [apply Nat.mod_0_l; auto|].
    replace (bq_begin q + bq_bs q) with (bq_begin q + 1 * bq_bs q) by lia. rewrite Nat.mod_add; auto.
  - exact A2.
Qed.
Lemma contig_spec : forall q n, qok q -> let '(d, q') := bq_contig q n in
  let k := Nat.min n (Nat.min (bq_cap q - bq_begin q) (bq_size q)) in
  d = firstn k (cont q) /\ cont q' = skipn k (cont q) /\ length d = k /\ qok q' /\ bq_cap q' = bq_cap q /\ bq_bs q' = bq_bs q /\ bq_size q' = bq_size q - k /\
  bq_max q' = bq_max q /\ bq_buf q' = bq_buf q /\ (k = Nat.min (bq_cap q - bq_begin q) (bq_size q) -> bq_begin q' = 0).
Proof.
  intros q n Hq. pose proof Hq as [H1 H2]. unfold bq_contig. set (k := Nat.min n _). cbv zeta.
  assert (Hk : k <= bq_size q /\ bq_begin q + k <= bq_cap q) by lia. destruct Hk as [Hk1 Hk2].
  set (q' := mkBQ _ _ _ _ _).
  assert (Hd : cont q' = skipn k (cont q)).
  { apply cont_drop; auto. unfold q'. cbn [bq_begin bq_size]. destruct (Nat.eqb_spec (bq_size q - k) 0) as [E0|E0]; [left; auto|right]. cbn [orb].
    destruct (Nat.eqb_spec (bq_begin q + k) (bq_cap q)) as [E|E].
    - rewrite E. rewrite Nat.mod_same; lia.
    - rewrite Nat.mod_small; lia. }
  rewrite slice_cont by (auto; lia). repeat split; auto.
  - rewrite firstn_length, cont_length. lia.
  - unfold q', bq_cap. cbn [bq_size bq_buf]. unfold bq_cap in H1. lia.
  - unfold q', bq_cap. cbn [bq_begin bq_buf]. fold (bq_cap q). destruct (Nat.eqb_spec (bq_begin q + k) (bq_cap q)), (Nat.eqb_spec (bq_size q - k) 0); cbn [orb]; lia.
  - intros Ek. unfold q'. cbn [bq_begin]. destruct (Nat.eqb_spec (bq_begin q + k) (bq_cap q)), (Nat.eqb_spec (bq_size q - k) 0); cbn [orb]; lia.
Qed.
Lemma get_all_spec : forall q, qok q -> bq_cap q = bq_bs q * bq_max q -> aligned q -> bq_bs q <> 0 ->
  let '(d, q') := bq_get_all q in d = cont q /\ cont q' = [] /\ qok q' /\ aligned q' /\ bq_cap q' = bq_cap q /\ bq_bs q' = bq_bs q /\
    bq_max q' = bq_max q /\ (bq_begin q = 0 -> bq_begin q' = 0).
Proof.
  intros q Hq Hc Ha Hb. unfold bq_get_all. destruct (Nat.eqb_spec (bq_size q) 0) as [E|E].
  - assert (Ec : cont q = []) by (apply length_zero_iff_nil; rewrite cont_length; auto). rewrite Ec. repeat split; auto; apply Hq || apply Ha.
  - pose proof (contig_spec q (bq_max q * bq_bs q) Hq) as X. destruct (bq_contig q (bq_max q * bq_bs q)) as [d q1]. cbv zeta in X. pose proof Hq as [H1 H2].
    set (k := Nat.min (bq_max q * bq_bs q) _) in X. destruct X as (X1 & X2 & X3 & X4 & X5 & X6 & X7 & X8 & X9 & X10).
    assert (Ek : k = Nat.min (bq_cap q - bq_begin q) (bq_size q)) by lia. specialize (X10 Ek).
    assert (E2 : firstn (bq_size q1) (skipn (bq_begin q1) (bq_buf q1)) = cont q1).
    { rewrite slice_cont; auto; [|rewrite X10, X5, X7; lia]. rewrite firstn_all2; auto. rewrite cont_length. lia. }
    rewrite E2, X1, X2, firstn_skipn. repeat split; auto.
    + unfold bq_cap in *. cbn [bq_size bq_buf]. lia.
    + unfold bq_cap in *. cbn [bq_begin bq_buf]. destruct X4 as [_ X4]. unfold bq_cap in X4. exact X4.
    + cbn [bq_begin bq_bs]. rewrite X10. apply Nat.mod_0_l. lia.
    + unfold bq_cap in *. cbn [bq_buf bq_bs]. rewrite X9, X6. apply Ha.
Qed.
Lemma put_spec : forall q d, qok q -> bq_size q + length d <= bq_cap q ->
  let q' := bq_put q d in cont q' = cont q ++ d /\ qok q' /\ (aligned q -> aligned q') /\ bq_cap q' = bq_cap q /\ bq_bs q' = bq_bs q /\
    bq_size q' = bq_size q + length d /\ bq_max q' = bq_max q.
Proof.
  intros q d Hq Hd. pose proof Hq as [H1 H2]. unfold bq_put. destruct (Nat.eqb_spec (length d) 0) as [E|E].
  { apply length_zero_iff_nil in E. subst d. rewrite app_nil_r. cbn [length]. rewrite Nat.add_0_r. tauto. }
  set (N := bq_cap q) in *. assert (HN : N <> 0) by lia. assert (Hg : bq_begin q < N) by lia.
  set (e := if bq_size q <? N - bq_begin q then _ else _).
  assert (Ee : e = if bq_begin q + bq_size q <? N then bq_begin q + bq_size q else bq_begin q + bq_size q - N).
  { unfold e. destruct (Nat.ltb_spec (bq_size q) (N - bq_begin q)), (Nat.ltb_spec (bq_begin q + bq_size q) N); lia. }
  assert (He : e < N). { rewrite Ee. destruct (Nat.ltb_spec (bq_begin q + bq_size q) N); lia. }
  set (len := Nat.min (length d) (N - e)). cbv zeta.
  set (buf1 := write e (firstn len d) (bq_buf q)).
  assert (L0 : length (firstn len d) = len) by (rewrite firstn_length; lia).
  assert (L1 : length buf1 = N). { unfold buf1. rewrite write_length; auto. rewrite L0. fold (bq_cap q). fold N. lia. }
  set (buf2 := if len <? length d then write 0 (skipn len d) buf1 else buf1).
  assert (L2 : length buf2 = N). { unfold buf2. destruct (len <? length d); auto. rewrite write_length; auto. rewrite skipn_length. lia. }
  assert (Hnth : forall j, j < N -> nth j buf2 0%Z =
     if (e <=? j) && (j <? e + length d) then nth (j - e) d 0%Z else if j + N <? e + length d then nth (j + N - e) d 0%Z else nth j (bq_buf q) 0%Z).
  { intros j Hj.
    assert (B1 : nth j buf1 0%Z = if (e <=? j) && (j <? e + len) then nth (j - e) d 0%Z else nth j (bq_buf q) 0%Z).
    { unfold buf1. rewrite nth_write by (rewrite L0; fold (bq_cap q); fold N; lia). rewrite L0.
      destruct (Nat.leb_spec e j), (Nat.ltb_spec j (e + len)); cbn [andb]; auto. rewrite nth_firstn_lt by lia. reflexivity. }
    unfold buf2. destruct (Nat.ltb_spec len (length d)) as [Hl|Hl].
    - rewrite nth_write by (rewrite skipn_length; lia). rewrite skipn_length, B1. cbn [Nat.leb andb]. rewrite nth_skipn_add.
      destruct (Nat.ltb_spec j (0 + (length d - len))), (Nat.leb_spec e j), (Nat.ltb_spec j (e + length d)), (Nat.ltb_spec j (e + len)), (Nat.ltb_spec (j + N) (e + length d)); cbn [andb]; try lia; try reflexivity; f_equal; lia.
    - rewrite B1. destruct (Nat.leb_spec e j), (Nat.ltb_spec j (e + length d)), (Nat.ltb_spec j (e + len)), (Nat.ltb_spec (j + N) (e + length d)); cbn [andb]; try lia; reflexivity. }
  unfold qok, aligned, bq_cap. cbn [bq_buf bq_size bq_begin bq_bs bq_max]. rewrite L2.
  split; [|repeat split; try reflexivity; try lia; try apply H; destruct H as [A1 A2]; auto].
  apply list_ext.
  - rewrite app_length, !cont_length. reflexivity.
  - intros i Hi. rewrite cont_length in Hi. cbn [bq_size] in Hi. rewrite cont_nth by auto. cbn [bq_begin bq_buf]. unfold bq_cap. cbn [bq_buf]. rewrite L2.
    rewrite wrap_mod by lia. rewrite Hnth by (destruct (Nat.ltb_spec (bq_begin q + i) N); lia).
    destruct (Nat.lt_ge_cases i (bq_size q)) as [Hi1|Hi1].
    + rewrite app_nth1 by (rewrite cont_length; auto). rewrite cont_nth by auto. fold N. rewrite wrap_mod by lia.
      destruct (Nat.ltb_spec (bq_begin q + bq_size q) N), (Nat.ltb_spec (bq_begin q + i) N);
        repeat match goal with |- context [if ?c then _ else _] => let E := fresh in destruct c eqn:E end; try reflexivity;
        rewrite ?andb_true_iff, ?Nat.leb_le, ?Nat.ltb_lt in *; lia.
    + rewrite app_nth2 by (rewrite cont_length; auto). rewrite cont_length.
      destruct (Nat.ltb_spec (bq_begin q + bq_size q) N), (Nat.ltb_spec (bq_begin q + i) N);
        repeat match goal with |- context [if ?c then _ else _] => let E := fresh in destruct c eqn:E end;
        rewrite ?andb_true_iff, ?andb_false_iff, ?Nat.leb_le, ?Nat.ltb_lt, ?Nat.leb_gt, ?Nat.ltb_ge in *; try lia; f_equal; lia.
Qed.

(* -------------------------------------------------------------------- FilterWithBufferedInput *)

Lemma release_unique : forall b l n K, b <> 0 -> K mod b = 0 -> (K = 0 \/ K + l <= n) -> n - K < b + l -> K <= n -> K = release b l n.
Proof.
  intros b l n K Hb H1 H2 H3 H4. unfold release. apply Nat.mod_divides in H1; auto. destruct H1 as [c ->].
  destruct (Nat.ltb_spec n (b + l)) as [H5|H5].
  - destruct H2 as [H2|H2]; auto. destruct c; [lia|]. rewrite Nat.mul_succ_r in *. lia.
  - rewrite Nat.mul_comm. f_equal. destruct H2 as [H2|H2].
    + rewrite H2 in *. lia.
    + apply Nat.div_unique with (n - l - b * c); lia.
Qed.
Lemma release_le : forall b l n, b <> 0 -> release b l n <= n /\ release b l n mod b = 0 /\ n - release b l n < b + l.
Proof.
  intros b l n Hb. unfold release. destruct (Nat.ltb_spec n (b + l)) as [H|H].
  - rewrite Nat.mod_0_l by auto. lia.
  - rewrite Nat.mod_mul by auto. pose proof (Nat.div_mod (n - l) b Hb). pose proof (Nat.mod_upper_bound (n - l) b Hb).
    pose proof (Nat.mul_comm b ((n - l) / b)). lia.
Qed.
Lemma release_room : forall b l n, b <> 0 -> release b l n = 0 \/ release b l n + l <= n.
Proof.
  intros b l n Hb. unfold release. destruct (Nat.ltb_spec n (b + l)) as [H|H]; [left; auto|right].
  pose proof (Nat.div_mod (n - l) b Hb). pose proof (Nat.mul_comm b ((n - l) / b)). lia.
Qed.
Lemma capacity : forall b l, b <> 0 -> b + l - 1 <= b * ((2 * b + l - 2) / b).
Proof.
  intros b l Hb. pose proof (Nat.div_mod (2 * b + l - 2) b Hb) as D. pose proof (Nat.mod_upper_bound (2 * b + l - 2) b Hb) as M.
  set (x := b * ((2 * b + l - 2) / b)) in *. lia.
Qed.

Section Fw.
  Variables f b l : nat.
  Hypothesis Hb : b <> 0.
  Notation MAX := ((2 * b + l - 2) / b).

  (** The object holds [p]; [done]: the first piece is out. *)
  Definition shape (s : fw) (done : bool) : Prop :=
    fw_first s = f /\ fw_bs s = b /\ fw_last s = l /\ fw_done s = done /\ qok (fw_q s) /\ aligned (fw_q s) /\
    bq_bs (fw_q s) = (if done then b else 1) /\ bq_max (fw_q s) = (if done then MAX else f) /\
    bq_cap (fw_q s) = (if done then b * MAX else f) /\ (done = false -> bq_begin (fw_q s) = 0).
  Definition frep (s : fw) (st : bool * list Z) : Prop :=
    shape s (fst st) /\ cont (fw_q s) = snd st /\ (if fst st then length (snd st) < b + l else length (snd st) < f \/ f = 0 /\ snd st = []).
  Definition threw (done : bool) (s : fw) : Prop := frep s (done, []).

  Lemma shape_q : forall s done q, shape s done -> qok q -> aligned q -> bq_bs q = bq_bs (fw_q s) -> bq_max q = bq_max (fw_q s) -> bq_cap q = bq_cap (fw_q s) ->
    (done = false -> bq_begin q = 0) -> shape (set_q s q) done.
  Proof.
    intros s done q (H1 & H2 & H3 & H4 & H5 & H6 & H7 & H8 & H9 & H10) Q1 Q2 Q3 Q4 Q5 Q6.
    unfold shape, set_q. cbn [fw_first fw_bs fw_last fw_done fw_q]. rewrite Q3, Q4, Q5. auto 20.
  Qed.
  Lemma size_cont : forall s, bq_size (fw_q s) = length (cont (fw_q s)).
  Proof. intros. rewrite cont_length. reflexivity. Qed.

  (** In the middle of a put: [pre] has been released, [cont] and [inp] are to follow. *)
  Definition prog (s : fw) (inp : list Z) (n : nat) (X pre : list Z) (es : list fstep) : Prop :=
    shape s true /\ pre ++ cont (fw_q s) ++ inp = X /\ n = length (cont (fw_q s)) + length inp /\
    length pre mod b = 0 /\ (pre = [] \/ l <= n) /\ Forall (next_ok b) es /\ concat (map next_data es) = pre.

  Lemma prog_step : forall s inp n X pre es s' inp' n' d m, prog s inp n X pre es -> shape s' true ->
    cont (fw_q s) ++ inp = d ++ cont (fw_q s') ++ inp' -> n' = n - length d -> length d mod b = 0 -> d <> [] -> l + length d <= n ->
    prog s' inp' n' X (pre ++ d) (es ++ [(ENext m d, s')]).
  Proof.
    intros s inp n X pre es s' inp' n' d m (P1 & P2 & P3 & P4 & P5 & P6 & P7) Hs Hc Hn Hd Hd0 Hl. unfold prog. repeat split; auto; try apply Hs.
    - rewrite <- P2, <- app_assoc, Hc. reflexivity.
    - apply (f_equal (@length Z)) in Hc. rewrite !app_length in Hc. lia.
    - rewrite app_length, Nat.add_mod, P4, Hd by auto. apply Nat.mod_0_l; auto.
    - right. lia.
    - apply Forall_app. split; auto. constructor; [|constructor]. exists m, d. auto.
    - rewrite map_app, concat_app, P7. cbn [map concat]. unfold next_data. cbn [fst]. rewrite app_nil_r. reflexivity.
  Qed.

  Lemma loop1_spec : b = 1 -> forall fuel s n inp X pre es, prog s inp n X pre es -> bq_size (fw_q s) <= fuel ->
    let '(es', s', n') := fw_loop1 fuel s n in exists pre', prog s' inp n' X pre' (es ++ es') /\ (n' <= l \/ cont (fw_q s') = []).
  Proof.
    intros Hb1. induction fuel as [|k IH]; intros s n inp X pre es HP Hf.
    - cbn [fw_loop1]. exists pre. rewrite app_nil_r. split; auto. right. apply length_zero_iff_nil. rewrite cont_length. lia.
    - cbn [fw_loop1]. pose proof HP as (Hs & P2 & P3 & _). pose proof Hs as (H1 & H2 & H3 & H4 & H5 & H6 & H7 & H8 & H9 & H10). rewrite H3.
      destruct (Nat.ltb_spec l n) as [C1|C1]; cbn [andb].
      2:{ exists pre. rewrite app_nil_r. split; auto. }
      destruct (Nat.ltb_spec 0 (bq_size (fw_q s))) as [C2|C2].
      2:{ exists pre. rewrite app_nil_r. split; auto. right. apply length_zero_iff_nil. rewrite cont_length. lia. }
      pose proof (contig_spec (fw_q s) (n - l) H5) as X1. destruct (bq_contig (fw_q s) (n - l)) as [d q]. cbv zeta in X1.
      set (kk := Nat.min (n - l) _) in X1. destruct X1 as (Y1 & Y2 & Y3 & Y4 & Y5 & Y6 & Y7 & Y8 & Y9 & _).
      assert (Hkk : 0 < kk). { destruct H5 as [S1 [S2|S2]]; unfold kk; lia. }
      assert (Al : aligned q). { unfold aligned. rewrite Y6, H7, Hb1. rewrite !Nat.mod_1_r. auto. }
      assert (Hs' : shape (set_q s q) true) by (apply shape_q; auto; discriminate).
      specialize (IH (set_q s q) (n - length d) inp X (pre ++ d) (es ++ [(ENext true d, set_q s q)])).
      destruct (fw_loop1 k (set_q s q) (n - length d)) as [[es' s'] n'].
      destruct IH as (pre' & I1 & I2).
      + eapply prog_step; eauto.
        * cbn [set_q fw_q]. rewrite Y1, Y2, app_assoc, firstn_skipn. reflexivity.
        * rewrite Hb1. apply Nat.mod_1_r.
        * intros ->. cbn [length] in Y3. lia.
        * lia.
      + cbn [set_q fw_q]. lia.
      + exists pre'. rewrite <- app_assoc in I1. cbn [app] in I1. auto.
  Qed.
  Lemma loop2_spec : forall fuel s n inp X pre es, prog s inp n X pre es -> bq_size (fw_q s) <= fuel ->
    let '(es', s', n') := fw_loop2 fuel s n in exists pre', prog s' inp n' X pre' (es ++ es') /\ (n' < b + l \/ length (cont (fw_q s')) < b).
  Proof.
    induction fuel as [|k IH]; intros s n inp X pre es HP Hf.
    - cbn [fw_loop2]. exists pre. rewrite app_nil_r. split; auto. right. rewrite cont_length. lia.
    - cbn [fw_loop2]. pose proof HP as (Hs & P2 & P3 & _). pose proof Hs as (H1 & H2 & H3 & H4 & H5 & H6 & H7 & H8 & H9 & H10). rewrite H2, H3.
      destruct (Nat.leb_spec (b + l) n) as [C1|C1]; cbn [andb].
      2:{ exists pre. rewrite app_nil_r. split; auto. }
      destruct (Nat.leb_spec b (bq_size (fw_q s))) as [C2|C2].
      2:{ exists pre. rewrite app_nil_r. split; auto. right. rewrite cont_length. lia. }
      destruct (get_block_spec (fw_q s)) as (d & q & E & Y1 & Y2 & Y3 & Y4 & Y5 & Y6 & Y7); auto; try (rewrite H7; auto).
      rewrite E. rewrite H7 in *.
      assert (Ym : bq_max q = bq_max (fw_q s)). { unfold bq_get_block in E. destruct (bq_bs (fw_q s) <=? bq_size (fw_q s)); inversion E; reflexivity. }
      assert (Hs' : shape (set_q s q) true) by (apply shape_q; auto; try discriminate; lia).
      specialize (IH (set_q s q) (n - b) inp X (pre ++ d) (es ++ [(ENext true d, set_q s q)])).
      destruct (fw_loop2 k (set_q s q) (n - b)) as [[es' s'] n'].
      destruct IH as (pre' & I1 & I2).
      + eapply prog_step; eauto.
        * cbn [set_q fw_q]. rewrite Y1, <- app_assoc. reflexivity.
        * rewrite Y2. apply Nat.mod_same; auto.
        * intros ->. cbn [length] in Y2. lia.
        * lia.
      + cbn [set_q fw_q]. lia.
      + exists pre'. rewrite <- app_assoc in I1. cbn [app] in I1. auto.
  Qed.

  Lemma stream_spec : b = 1 -> forall s n inp X m, prog s inp n X [] [] ->
    let '(es, s', inp', n') := fw_put_stream s inp n m in exists pre, prog s' inp' n' X pre es /\ n' < b + l.
  Proof.
    intros Hb1 s n inp X m HP. unfold fw_put_stream. pose proof (loop1_spec Hb1 (bq_size (fw_q s)) s n inp X [] [] HP ltac:(lia)) as L.
    destruct (fw_loop1 (bq_size (fw_q s)) s n) as [[es s1] n1]. destruct L as (pre & L1 & L2). cbn [app] in L1.
    pose proof L1 as (Hs & P2 & P3 & _). pose proof Hs as (H1 & H2 & H3 & _). rewrite H3. destruct (Nat.ltb_spec l n1) as [C|C].
    - assert (Ec : cont (fw_q s1) = []) by (destruct L2; auto; lia). rewrite Ec in *. cbn [app length] in P3.
      exists (pre ++ firstn (n1 - l) inp). split; [|lia].
      assert (Lf : length (firstn (n1 - l) inp) = n1 - l) by (rewrite firstn_length; lia).
      eapply prog_step; eauto.
      + rewrite Ec. cbn [app]. rewrite firstn_skipn. reflexivity.
      + rewrite Hb1. apply Nat.mod_1_r.
      + intros E. rewrite E in Lf. cbn [length] in Lf. lia.
      + lia.
    - exists pre. split; [auto|lia].
  Qed.
  Lemma blocks_spec : 1 < b -> forall s n inp X m, prog s inp n X [] [] ->
    let '(es, s', inp', n') := fw_put_blocks s inp n m in exists pre, prog s' inp' n' X pre es /\ n' < b + l.
  Proof.
    intros Hb1 s n inp X m HP. unfold fw_put_blocks. pose proof (loop2_spec (bq_size (fw_q s)) s n inp X [] [] HP ltac:(lia)) as L.
    destruct (fw_loop2 (bq_size (fw_q s)) s n) as [[es s1] n1]. destruct L as (pre & L1 & L2). cbn [app] in L1.
    (* the partial block *)
    set (two := if (fw_bs s1 + fw_last s1 <=? n1) && (0 <? bq_size (fw_q s1)) then _ else _).
    assert (T : let '(es', s2, inp2, n2) := two in exists pre2, prog s2 inp2 n2 X pre2 (es ++ es') /\ (n2 < b + l \/ cont (fw_q s2) = [])).
    { unfold two. clear two. pose proof L1 as (Hs & P2 & P3 & _). pose proof Hs as (H1 & H2 & H3 & H4 & H5 & H6 & H7 & H8 & H9 & H10). rewrite H2, H3.
      destruct (Nat.leb_spec (b + l) n1) as [C1|C1]; cbn [andb].
      2:{ exists pre. rewrite app_nil_r. auto. }
      destruct (Nat.ltb_spec 0 (bq_size (fw_q s1))) as [C2|C2].
      2:{ exists pre. rewrite app_nil_r. split; auto. right. apply length_zero_iff_nil. rewrite cont_length. lia. }
      destruct L2 as [L2|L2]; [lia|]. rewrite cont_length in *.
      assert (Lf : length (firstn (b - bq_size (fw_q s1)) inp) = b - bq_size (fw_q s1)) by (rewrite firstn_length; lia).
      pose proof (capacity b l Hb) as Cp.
      destruct (put_spec (fw_q s1) (firstn (b - bq_size (fw_q s1)) inp) H5) as (Z1 & Z2 & Z3 & Z4 & Z5 & Z6 & Z7).
      { rewrite Lf, H9. destruct H5 as [S1 _]. rewrite H9 in S1. assert (b <= b * MAX); [|lia].
        assert (1 <= MAX) by (apply Nat.div_le_lower_bound; lia). replace b with (b * 1) at 1 by lia. apply Nat.mul_le_mono_l; auto. }
      set (q0 := bq_put (fw_q s1) (firstn (b - bq_size (fw_q s1)) inp)) in *.
      destruct (get_block_spec q0) as (d & q & E & Y1 & Y2 & Y3 & Y4 & Y5 & Y6 & Y7); auto; try (rewrite Z5, H7; auto); try lia.
      rewrite E. rewrite Z5, H7 in *.
      assert (Ym : bq_max q = bq_max q0). { unfold bq_get_block in E. destruct (bq_bs q0 <=? bq_size q0); inversion E; reflexivity. }
      assert (Hs' : shape (set_q s1 q) true) by (apply shape_q; auto; try discriminate; lia).
      assert (Eq : cont q = []) by (apply length_zero_iff_nil; rewrite cont_length; lia).
      exists (pre ++ d). split; [|right; exact Eq]. eapply prog_step; eauto.
      + cbn [set_q fw_q]. rewrite Eq. cbn [app]. rewrite Eq, app_nil_r in Y1. rewrite <- Y1, Z1, <- app_assoc, firstn_skipn. reflexivity.
      + rewrite Y2. apply Nat.mod_same; auto.
      + intros ->. cbn [length] in Y2. lia.
      + lia. }
    destruct two as [[[es' s2] inp2] n2]. destruct T as (pre2 & T1 & T2). pose proof T1 as (Hs & P2 & P3 & _). pose proof Hs as (H1 & H2 & H3 & _). rewrite H2, H3.
    destruct (Nat.leb_spec (b + l) n2) as [C|C].
    - destruct T2 as [T2|T2]; [lia|]. rewrite T2 in *. cbn [app length] in P3. set (len := (n2 - l) / b * b).
      assert (Hlen : len + l <= n2 /\ n2 - len < b + l /\ len mod b = 0 /\ 0 < len).
      { unfold len. pose proof (Nat.div_mod (n2 - l) b Hb). pose proof (Nat.mod_upper_bound (n2 - l) b Hb). rewrite Nat.mod_mul by auto.
        assert (1 <= (n2 - l) / b) by (apply Nat.div_le_lower_bound; lia). pose proof (Nat.mul_comm b ((n2 - l) / b)).
        set (x := (n2 - l) / b) in *. assert (b * 1 <= b * x) by (apply Nat.mul_le_mono_l; auto). lia. }
      destruct Hlen as (G1 & G2 & G3 & G4).
      assert (Lf : length (firstn len inp2) = len) by (rewrite firstn_length; lia).
      exists (pre2 ++ firstn len inp2). split; [|auto]. rewrite app_assoc. eapply prog_step; eauto.
      + rewrite T2. cbn [app]. rewrite firstn_skipn. reflexivity.
      + rewrite Lf. auto.
      + intros E. rewrite E in Lf. cbn [length] in Lf. lia.
      + lia.
    - exists pre2. split; auto.
  Qed.

  Lemma prog_final : forall s inp n X pre es, prog s inp n X pre es -> n < b + l ->
    frep (set_q s (bq_put (fw_q s) (firstn (n - bq_size (fw_q s)) inp))) (true, skipn (release b l (length X)) X) /\
    pre = firstn (release b l (length X)) X.
  Proof.
    intros s inp n X pre es (Hs & P2 & P3 & P4 & P5 & _) Hn. pose proof Hs as (H1 & H2 & H3 & H4 & H5 & H6 & H7 & H8 & H9 & H10).
    assert (HK : length pre = release b l (length X)).
    { apply release_unique; auto; rewrite <- P2, !app_length; try lia. destruct P5 as [->|P5]; cbn [length]; lia. }
    rewrite <- HK, <- P2. rewrite firstn_app_ge by lia. rewrite skipn_app_ge by lia. rewrite Nat.sub_diag. cbn [firstn skipn].
    split; [|rewrite app_nil_r; reflexivity].
    replace (n - bq_size (fw_q s)) with (length inp) by (rewrite size_cont; lia). rewrite firstn_all.
    destruct (put_spec (fw_q s) inp H5) as (Z1 & Z2 & Z3 & Z4 & Z5 & Z6 & Z7).
    { rewrite H9, size_cont. pose proof (capacity b l Hb). lia. }
    unfold frep. cbn [fst snd]. split; [|split].
    - apply shape_q; auto. discriminate.
    - cbn [set_q fw_q]. exact Z1.
    - rewrite app_length. lia.
  Qed.
  Lemma put_mid : forall s p inp m, shape s true -> cont (fw_q s) = p -> 
    let n := length p + length inp in
    let '(es, s', inp', n') := if fw_bs s =? 1 then fw_put_stream s inp n m else fw_put_blocks s inp n m in
    frep (set_q s' (bq_put (fw_q s') (firstn (n' - bq_size (fw_q s')) inp'))) (true, skipn (release b l (length (p ++ inp))) (p ++ inp)) /\
    fw_done s' = true /\ Forall (next_ok b) es /\ concat (map next_data es) = firstn (release b l (length (p ++ inp))) (p ++ inp).
  Proof.
    intros s p inp m Hs Hc n. subst n.
    assert (HP : prog s inp (length p + length inp) (p ++ inp) [] []).
    { unfold prog. rewrite Hc. cbn [app length map concat]. rewrite Nat.mod_0_l by auto. split; [exact Hs|]. auto 10. }
    assert (W : let '(es, s', inp', n') := if fw_bs s =? 1 then fw_put_stream s inp (length p + length inp) m else fw_put_blocks s inp (length p + length inp) m in
              exists pre, prog s' inp' n' (p ++ inp) pre es /\ n' < b + l).
    { destruct Hs as (_ & Hbs & _). rewrite Hbs. destruct (Nat.eqb_spec b 1) as [E|E].
      - apply stream_spec; auto.
      - apply blocks_spec; auto. lia. }
    destruct (if fw_bs s =? 1 then _ else _) as [[[es s'] inp'] n']. destruct W as (pre & W1 & W2).
    destruct (prog_final _ _ _ _ _ _ W1 W2) as [F1 F2]. destruct W1 as (Q1 & _ & _ & _ & _ & Q2 & Q3). rewrite <- F2, Q3.
    destruct Q1 as (_ & _ & _ & Q4 & _). auto.
  Qed.

  Lemma delivers_app : forall P es1 ss1 es2 ss2, delivers b P es1 ss1 -> delivers b P es2 ss2 -> delivers b P (es1 ++ es2) (ss1 ++ ss2).
  Proof. intros P es1 ss1 es2 ss2 H1 H2. induction H1; cbn [app]; rewrite <- ?app_assoc; auto; econstructor; eauto. Qed.
  Lemma delivers_mid : forall P ns d, Forall (next_ok b) ns -> concat (map next_data ns) = d -> delivers b P ns [SMid d].
  Proof. intros P ns d H1 H2. rewrite <- (app_nil_r ns). constructor; auto. constructor. Qed.

  Lemma put_data_spec : forall s done p d m, frep s (done, p) -> d <> [] ->
    let '(es, s') := fw_put_data s d m in let '(ss, st) := spec_put f b l (done, p) d 0 in delivers b threw es ss /\ frep s' st.
  Proof.
    intros s done p d m (Hs & Hc & Hl) Hd. cbn [fst snd] in Hs, Hc, Hl. unfold fw_put_data, spec_put. cbn [Z.eqb].
    assert (Ld : length d <> 0) by (rewrite length_zero_iff_nil; auto).
    destruct (Nat.eqb_spec (length d) 0) as [?|_]; [contradiction|].
    pose proof Hs as (H1 & H2 & H3 & H4 & H5 & H6 & H7 & H8 & H9 & H10). rewrite H4, H1, size_cont, Hc, app_length.
    destruct done; cbn [negb andb].
    - (* the first piece is out *)
      rewrite H4. pose proof (put_mid s p d m Hs Hc) as M. cbv zeta in M. rewrite <- app_length. rewrite <- app_length in M.
      destruct (if fw_bs s =? 1 then _ else _) as [[[es s'] inp'] n']. destruct M as (M1 & M2 & M3 & M4). cbn [app].
      split; [apply delivers_mid; auto | exact M1].
    - destruct (Nat.leb_spec f (length p + length d)) as [C|C].
      + (* FirstPut *)
        unfold fw_put_first. rewrite H1, size_cont, Hc.
        assert (Hlp : length p <= f) by (destruct Hl as [Hl|[Hl ->]]; cbn [length]; lia).
        assert (Lf : length (firstn (f - length p) d) = f - length p) by (rewrite firstn_length; lia).
        destruct (put_spec (fw_q s) (firstn (f - length p) d) H5) as (Z1 & Z2 & Z3 & Z4 & Z5 & Z6 & Z7).
        { rewrite H9, size_cont, Hc, Lf. lia. }
        set (q0 := bq_put (fw_q s) (firstn (f - length p) d)) in *.
        pose proof (contig_spec q0 f Z2) as Y. destruct (bq_contig q0 f) as [d1 q1]. cbv zeta in Y.
        assert (B0 : bq_begin q0 = 0). { unfold q0, bq_put. destruct (length (firstn (f - length p) d) =? 0); cbn; auto. }
        rewrite B0, Z4, H9, Z6, size_cont, Hc, Lf in Y.
        replace (Nat.min f (Nat.min (f - 0) (length p + (f - length p)))) with f in Y by lia.
        destruct Y as (Y1 & Y2 & Y3 & _).
        assert (E1 : d1 = firstn f (p ++ d)).
        { rewrite Y1, Z1, Hc. rewrite firstn_all2 by (rewrite app_length; lia). rewrite firstn_app_ge by lia. reflexivity. }
        rewrite Y3, H2, H3. cbn [fw_done].
        destruct (reset_ok b MAX Hb) as (R2 & R3 & R1 & R4).
        set (s1 := mkFW f b l true (bq_reset b MAX)).
        assert (Hs1 : shape s1 true).
        { unfold s1, shape. cbn [fw_first fw_bs fw_last fw_done fw_q]. repeat split; auto; try apply R2; try apply R3; try discriminate. }
        pose proof (put_mid s1 [] (skipn (f - length p) d) m Hs1 R1) as M. cbv zeta in M.
        replace (length (@nil Z) + length (skipn (f - length p) d)) with (length p + length d - f) in M by (rewrite skipn_length; cbn [length]; lia).
        destruct (if fw_bs s1 =? 1 then _ else _) as [[[es s'] inp'] n']. destruct M as (M1 & M2 & M3 & M4). cbn [app] in M1, M4.
        assert (E2 : skipn f (p ++ d) = skipn (f - length p) d). { rewrite skipn_app_ge by lia. reflexivity. }
        rewrite E2, E1. split; [|exact M1]. cbn [app]. constructor. apply delivers_mid; auto.
      + rewrite H4. rewrite size_cont, Hc, (Nat.add_comm (length p)), Nat.add_sub, firstn_all. cbn [app]. split; [constructor|].
        destruct (put_spec (fw_q s) d H5) as (Z1 & Z2 & Z3 & Z4 & Z5 & Z6 & Z7).
        { rewrite H9, size_cont, Hc. lia. }
        unfold frep. cbn [fst snd]. split; [|split].
        * apply shape_q; auto. intros _. unfold bq_put. destruct (length d =? 0); cbn; auto.
        * cbn [set_q fw_q]. rewrite Z1, Hc. reflexivity.
        * rewrite app_length. lia.
  Qed.
  Lemma message_end_spec : forall s done p e, frep s (done, p) ->
    let '(es, s') := fw_message_end s e in
    delivers b threw es ((if negb done && (f =? 0) then [SFirst []] else []) ++ [SLast p done; SEnd e]) /\ frep s' (false, []).
  Proof.
    intros s done p e (Hs & Hc & Hl). cbn [fst snd] in Hs, Hc, Hl. unfold fw_message_end.
    pose proof Hs as (H1 & H2 & H3 & H4 & H5 & H6 & H7 & H8 & H9 & H10).
    assert (Hcap : bq_cap (fw_q s) = bq_bs (fw_q s) * bq_max (fw_q s)) by (rewrite H7, H8, H9; destruct done; auto; lia).
    assert (Hbs : bq_bs (fw_q s) <> 0) by (rewrite H7; destruct done; auto).
    pose proof (get_all_spec (fw_q s) H5 Hcap H6 Hbs) as G. destruct (bq_get_all (fw_q s)) as [temp q].
    destruct G as (G1 & G2 & G3 & G4 & G5 & G6 & G7 & G8). rewrite H4, H1, H2, H3.
    destruct (reset_ok 1 f ltac:(lia)) as (R2 & R3 & R1 & R4). rewrite Nat.mul_1_l in R4.
    assert (T : frep (mkFW f b l false (bq_reset 1 f)) (false, [])).
    { unfold frep, shape. cbn [fst snd fw_first fw_bs fw_last fw_done fw_q]. repeat split; auto; try apply R2; try apply R3. destruct f; [right|left]; cbn [length]; auto; lia. }
    assert (T2 : threw done (set_q s q)).
    { unfold threw, frep. cbn [fst snd]. split; [apply shape_q; auto|split; [exact G2|]].
      destruct done; cbn [length]; [lia|]. destruct f; [right|left]; auto; lia. }
    split; [|exact T].
    assert (TT : delivers b threw [(ELast temp, set_q s q); (EEnd e, mkFW f b l false (bq_reset 1 f))] [SLast p done; SEnd e]).
    { rewrite <- Hc, <- G1. apply d_last; [exact T2|]. apply d_end. apply d_nil. }
    destruct (negb done && (f =? 0)); cbn [app]; auto. constructor. exact TT.
  Qed.
  Lemma spec_put_end : forall st d e, (e =? 0)%Z = false ->
    spec_put f b l st d e = let '(ss, (done, p)) := spec_put f b l st d 0 in
      (ss ++ (if negb done && (f =? 0) then [SFirst []] else []) ++ [SLast p done; SEnd e], (false, [])).
  Proof.
    intros [done p] d e He. unfold spec_put. rewrite He. cbn [Z.eqb].
    destruct (length d =? 0); auto.
    destruct (negb done && (f <=? length (p ++ d))); auto. destruct done; auto.
  Qed.
  Lemma put_refines : forall s st d e m, frep s st ->
    let '(es, s') := fw_put s d e m in let '(ss, st') := spec_put f b l st d e in delivers b threw es ss /\ frep s' st'.
  Proof.
    intros s [done p] d e m H. unfold fw_put.
    assert (A : let '(es, s') := if length d =? 0 then ([], s) else fw_put_data s d m in let '(ss, st') := spec_put f b l (done, p) d 0 in
                delivers b threw es ss /\ frep s' st').
    { destruct (Nat.eqb_spec (length d) 0) as [E|E].
      - unfold spec_put. cbn [Z.eqb]. rewrite E. cbn [Nat.eqb]. split; [constructor|auto].
      - apply put_data_spec; auto. intros ->. apply E; reflexivity. }
    destruct (if length d =? 0 then _ else _) as [es1 s1].
    destruct (e =? 0)%Z eqn:Ee.
    - apply Z.eqb_eq in Ee. subst e. destruct (spec_put f b l (done, p) d 0) as [ss st']. rewrite app_nil_r. exact A.
    - rewrite spec_put_end by auto. destruct (spec_put f b l (done, p) d 0) as [ss [done' p']]. destruct A as [A1 A2].
      pose proof (message_end_spec s1 done' p' e A2) as M. destruct (fw_message_end s1 e) as [es2 s2]. destruct M as [M1 M2].
      split; [apply delivers_app; auto | auto].
  Qed.

  (** Flushing. *)
  Lemma force1_spec : b = 1 -> forall fuel s, shape s true -> bq_size (fw_q s) <= fuel ->
    let '(es, s') := fw_force1 fuel s in shape s' true /\ cont (fw_q s') = [] /\ Forall (next_ok b) es /\ concat (map next_data es) = cont (fw_q s).
  Proof.
    intros Hb1. induction fuel as [|k IH]; intros s Hs Hf; cbn [fw_force1].
    - assert (E : cont (fw_q s) = []) by (apply length_zero_iff_nil; rewrite cont_length; lia). rewrite E. auto.
    - pose proof Hs as (H1 & H2 & H3 & H4 & H5 & H6 & H7 & H8 & H9 & H10).
      destruct (Nat.ltb_spec 0 (bq_size (fw_q s))) as [C2|C2].
      2:{ assert (E : cont (fw_q s) = []) by (apply length_zero_iff_nil; rewrite cont_length; lia). rewrite E. auto. }
      pose proof (contig_spec (fw_q s) (bq_size (fw_q s)) H5) as X1. destruct (bq_contig (fw_q s) (bq_size (fw_q s))) as [d q]. cbv zeta in X1.
      set (kk := Nat.min (bq_size (fw_q s)) _) in X1. destruct X1 as (Y1 & Y2 & Y3 & Y4 & Y5 & Y6 & Y7 & Y8 & Y9 & _).
      assert (Hkk : 0 < kk). { destruct H5 as [S1 [S2|S2]]; unfold kk; lia. }
      assert (Al : aligned q). { unfold aligned. rewrite Y6, H7, Hb1. rewrite !Nat.mod_1_r. auto. }
      assert (Hs' : shape (set_q s q) true) by (apply shape_q; auto; discriminate).
      specialize (IH (set_q s q) Hs'). destruct (fw_force1 k (set_q s q)) as [es' s'].
      destruct IH as (I1 & I2 & I3 & I4). { cbn [set_q fw_q]. lia. }
      repeat split; auto; try apply I1.
      + constructor; auto. exists true, d. repeat split; auto.
        * intros ->. cbn [length] in Y3. lia.
        * rewrite Hb1. apply Nat.mod_1_r.
      + cbn [map concat]. rewrite I4. unfold next_data. cbn [fst set_q fw_q]. rewrite Y1, Y2. apply firstn_skipn.
  Qed.
  Lemma force2_spec : forall fuel s, shape s true -> bq_size (fw_q s) <= fuel ->
    let '(es, s') := fw_force2 fuel s in let k := length (cont (fw_q s)) / b * b in
    shape s' true /\ cont (fw_q s') = skipn k (cont (fw_q s)) /\ Forall (next_ok b) es /\ concat (map next_data es) = firstn k (cont (fw_q s)).
  Proof.
    induction fuel as [|k IH]; intros s Hs Hf; cbn [fw_force2].
    - assert (E : cont (fw_q s) = []) by (apply length_zero_iff_nil; rewrite cont_length; lia). rewrite E. cbn [length]. rewrite Nat.div_0_l by auto. cbn. auto.
    - pose proof Hs as (H1 & H2 & H3 & H4 & H5 & H6 & H7 & H8 & H9 & H10). rewrite H2.
      destruct (Nat.leb_spec b (bq_size (fw_q s))) as [C2|C2].
      2:{ rewrite cont_length. rewrite Nat.div_small by auto. cbn. auto. }
      destruct (get_block_spec (fw_q s)) as (d & q & E & Y1 & Y2 & Y3 & Y4 & Y5 & Y6 & Y7); auto; try (rewrite H7; auto).
      rewrite E. rewrite H7 in *.
      assert (Ym : bq_max q = bq_max (fw_q s)). { unfold bq_get_block in E. destruct (bq_bs (fw_q s) <=? bq_size (fw_q s)); inversion E; reflexivity. }
      assert (Hs' : shape (set_q s q) true) by (apply shape_q; auto; try discriminate; lia).
      specialize (IH (set_q s q) Hs'). destruct (fw_force2 k (set_q s q)) as [es' s']. cbv zeta in IH.
      destruct IH as (I1 & I2 & I3 & I4). { cbn [set_q fw_q]. lia. }
      cbn [set_q fw_q] in I2, I4. cbv zeta.
      assert (EK : length (cont (fw_q s)) / b * b = b + length (cont q) / b * b).
      { rewrite Y1, app_length, Y2. replace (b + length (cont q)) with (1 * b + length (cont q)) by lia.
        rewrite Nat.div_add_l by auto. rewrite Nat.mul_add_distr_r. lia. }
      rewrite EK. split; [auto|]. split; [|split].
      + rewrite I2, Y1. rewrite skipn_app_ge by lia. rewrite Y2. f_equal. lia.
      + constructor; auto. exists true, d. repeat split; auto.
        * intros ->. cbn [length] in Y2. lia.
        * rewrite Y2. apply Nat.mod_same; auto.
      + cbn [map concat]. rewrite I4. unfold next_data. cbn [fst]. rewrite Y1. rewrite firstn_app_ge by lia. rewrite Y2. do 2 f_equal. lia.
  Qed.
  Lemma flush_refines : forall s st h, frep s st ->
    let '(es, s') := fw_flush s h in let '(ss, st') := spec_flush b st h in delivers b threw es ss /\ frep s' st'.
  Proof.
    intros s [done p] h (Hs & Hc & Hl). cbn [fst snd] in Hs, Hc, Hl. unfold fw_flush, spec_flush.
    assert (F0 : frep s (done, p)) by (split; [|split]; auto).
    destruct h; cbn [andb].
    2:{ split; [cbn [app]; repeat constructor | auto]. }
    unfold fw_force. pose proof Hs as (H1 & H2 & H3 & H4 & _). rewrite H4. destruct done.
    2:{ split; [cbn [app]; repeat constructor | auto]. }
    assert (A : let '(es, s') := if 1 <? fw_bs s then fw_force2 (bq_size (fw_q s)) s else fw_force1 (bq_size (fw_q s)) s in
      shape s' true /\ cont (fw_q s') = skipn (length p / b * b) p /\ Forall (next_ok b) es /\ concat (map next_data es) = firstn (length p / b * b) p).
    { rewrite H2. destruct (Nat.ltb_spec 1 b) as [C|C].
      - pose proof (force2_spec (bq_size (fw_q s)) s Hs ltac:(lia)) as X. destruct (fw_force2 _ s) as [es s']. rewrite Hc in X. exact X.
      - assert (b = 1) as Hb1 by lia. pose proof (force1_spec Hb1 (bq_size (fw_q s)) s Hs ltac:(lia)) as X. destruct (fw_force1 _ s) as [es s'].
        rewrite Hb1 at 1 2 4 5. rewrite Hb1 in X. rewrite Nat.div_1_r, Nat.mul_1_r, firstn_all, skipn_all. rewrite Hc in X. rewrite Hb1. exact X. }
    destruct (if 1 <? fw_bs s then _ else _) as [es s']. destruct A as (A1 & A2 & A3 & A4). split.
    - constructor; auto. constructor. constructor.
    - split; [exact A1|]. cbn [fst snd]. split; [exact A2|]. rewrite skipn_length. lia.
  Qed.

  Theorem step_refines : forall s st op, frep s st ->
    let '(es, s') := fw_step s op in let '(ss, st') := spec_wstep f b l st op in delivers b threw es ss /\ frep s' st'.
  Proof. intros s st [d e m|h] H; cbn [fw_step spec_wstep]; [apply put_refines | apply flush_refines]; auto. Qed.
  Theorem run_refines : forall ops s st, frep s st ->
    let '(es, s') := fw_run s ops in let '(ss, st') := spec_wrun f b l st ops in delivers b threw es ss /\ frep s' st'.
  Proof.
    induction ops as [|op r IH]; intros s st H; cbn [fw_run spec_wrun].
    - split; [constructor|auto].
    - pose proof (step_refines s st op H) as X. destruct (fw_step s op) as [es s1]. destruct (spec_wstep f b l st op) as [ss st1]. destruct X as [X1 X2].
      specialize (IH s1 st1 X2). destruct (fw_run s1 r) as [es' s2]. destruct (spec_wrun f b l st1 r) as [ss' st2]. destruct IH as [I1 I2].
      split; [apply delivers_app; auto | auto].
  Qed.
  Lemma new_frep : frep (fw_new f b l) (false, []).
  Proof.
    destruct (reset_ok 1 f ltac:(lia)) as (R2 & R3 & R1 & R4). rewrite Nat.mul_1_l in R4.
    unfold frep, shape, fw_new. cbn [fst snd fw_first fw_bs fw_last fw_done fw_q]. repeat split; auto; try apply R2; try apply R3. destruct f; [right|left]; cbn [length]; auto; lia.
  Qed.
End Fw.
(* ------ MESSAGES *)

Definition mid_ok (b : nat) (e : event) : Prop := exists m d, e = ENext m d /\ d <> [] /\ length d mod b = 0.
Definition edata (e : event) : list Z := match e with ENext _ d => d | _ => [] end.
Definition smid (e : sevent) : Prop := exists d, e = SMid d.
Definition sdata (e : sevent) : list Z := match e with SMid d => d | _ => [] end.

Lemma delivers_mids : forall b P ms es, Forall smid ms -> delivers b P es ms ->
  Forall (mid_ok b) (map fst es) /\ concat (map edata (map fst es)) = concat (map sdata ms).
Proof.
  intros b P ms es H D. induction D; inversion H as [|? ? [d0 E0] H']; subst; try discriminate.
  - split; constructor.
  - inversion E0; subst. destruct (IHD H') as [I1 I2]. rewrite !map_app. split.
    + apply Forall_app. split; auto. apply Forall_map. eapply Forall_impl; [|exact H0]. intros e (m & d & E1 & E2 & E3). exists m, d. auto.
    + rewrite concat_app. transitivity (concat (map edata (map fst ns)) ++ concat (map sdata ss)); [f_equal; exact I2|]. cbn [map concat sdata]. f_equal. clear. induction ns as [|e ns IH]; [reflexivity|]. cbn [map concat]. rewrite IH.
      unfold next_data, edata. reflexivity.
Qed.
Lemma delivers_app_inv : forall b P ss1 ss2 es, delivers b P es (ss1 ++ ss2) ->
  exists es1 es2, es = es1 ++ es2 /\ delivers b P es1 ss1 /\ delivers b P es2 ss2.
Proof.
  induction ss1 as [|x ss1 IH]; intros ss2 es H; cbn [app] in H.
  - exists [], es. repeat split; auto. constructor.
  - inversion H; subst; match goal with D : delivers _ _ _ (ss1 ++ ss2) |- _ => apply IH in D; destruct D as (e1 & e2 & -> & A1 & A2) end.
    all: match goal with
         | |- exists es1 es2, ?ns ++ ?e1 ++ ?e2 = _ /\ _ => exists (ns ++ e1), e2; rewrite <- app_assoc
         | |- exists es1 es2, ?x :: ?e1 ++ ?e2 = _ /\ _ => exists (x :: e1), e2
         end; repeat split; auto; constructor; auto.
Qed.

Lemma delivers_last_inv : forall b P d dn ss es, delivers b P es (SLast d dn :: ss) ->
  exists s es', es = (ELast d, s) :: es' /\ P dn s /\ delivers b P es' ss.
Proof. intros b P d dn ss es H. inversion H; subst. do 2 eexists. split; [reflexivity|]. auto. Qed.
Lemma delivers_end_inv : forall b P e ss es, delivers b P es (SEnd e :: ss) -> exists s es', es = (EEnd e, s) :: es' /\ delivers b P es' ss.
Proof. intros b P e ss es H. inversion H; subst. do 2 eexists. split; [reflexivity|]. auto. Qed.
Lemma delivers_first_inv : forall b P d ss es, delivers b P es (SFirst d :: ss) -> exists s es', es = (EFirst d, s) :: es' /\ delivers b P es' ss.
Proof. intros b P d ss es H. inversion H; subst. do 2 eexists. split; [reflexivity|]. auto. Qed.
Lemma delivers_nil_inv : forall b P es, delivers b P es [] -> es = [].
Proof. intros b P es H. inversion H; subst; auto. Qed.

Section Message.
  Variables f b l : nat.
  Hypothesis Hb : b <> 0.
  Notation W := (spec_wrun f b l).
  (** Where the data put so far stands: [X] so far, [done0] the flag at the start (true only matters if f = 0). *)
  Definition so_far (done0 : bool) (X : list Z) (ss : list sevent) (st : bool * list Z) : Prop :=
    if negb done0 && ((length X <? f) || (length X =? 0)) then ss = [] /\ st = (false, X)
    else
      let R := skipn f X in let k := release b l (length R) in
      st = (true, skipn k R) /\ exists ms, ss = (if done0 then [] else [SFirst (firstn f X)]) ++ ms /\ Forall smid ms /\ concat (map sdata ms) = firstn k R.

  Lemma release_add : forall n k, release b l n <= n -> release b l n + release b l (n - release b l n + k) = release b l (n + k).
  Proof.
    intros n k _. destruct (release_le b l n Hb) as (A1 & A2 & A3). destruct (release_le b l (n - release b l n + k) Hb) as (B1 & B2 & B3).
    apply release_unique; auto.
    - rewrite Nat.add_mod, A2, B2 by auto. apply Nat.mod_0_l; auto.
    - destruct (release_room b l n Hb), (release_room b l (n - release b l n + k) Hb); lia.
    - lia.
    - lia.
  Qed.
  Lemma so_far_step : forall done0 X ss st d mo, (done0 = true -> f = 0) -> so_far done0 X ss st ->
    let '(ss', st') := spec_wstep f b l st (WPut d 0 mo) in so_far done0 (X ++ d) (ss ++ ss') st'.
  Proof.
    intros done0 X ss st d mo Hd0 H. cbn [spec_wstep]. unfold so_far in H. unfold spec_put. cbn [Z.eqb].
    destruct (negb done0 && ((length X <? f) || (length X =? 0))) eqn:C.
    - destruct H as [-> ->]. apply andb_true_iff in C. destruct C as [C1 C2]. destruct done0; [discriminate|]. clear C1. cbn [app].
      destruct (Nat.eqb_spec (length d) 0) as [E|E].
      + apply length_zero_iff_nil in E. subst d. rewrite app_nil_r. unfold so_far. cbn [negb andb]. rewrite C2. auto.
      + cbn [negb andb]. destruct (Nat.leb_spec f (length (X ++ d))) as [G|G].
        * unfold so_far. cbn [negb andb]. destruct (Nat.ltb_spec (length (X ++ d)) f) as [?|_]; [lia|]. destruct (Nat.eqb_spec (length (X ++ d)) 0) as [G2|_].
          { rewrite app_length in G2. lia. }
          cbn [orb app]. split; auto. eexists. split; [reflexivity|]. split; [constructor; [eexists; reflexivity|constructor]|].
          cbn [map concat sdata]. apply app_nil_r.
        * unfold so_far. cbn [negb andb]. destruct (Nat.ltb_spec (length (X ++ d)) f) as [_|?]; [|lia]. cbn [orb]. auto.
    - destruct H as (-> & ms & -> & H1 & H2). cbn [negb andb].
      assert (HX : f <= length X). { destruct done0; [rewrite Hd0; auto; lia|]. cbn [negb andb] in C. apply orb_false_iff in C. destruct C as [C _]. apply Nat.ltb_ge in C. auto. }
      set (R := skipn f X) in *. set (k := release b l (length R)) in *.
      destruct (Nat.eqb_spec (length d) 0) as [E|E].
      + apply length_zero_iff_nil in E. subst d. rewrite !app_nil_r. unfold so_far. rewrite C. fold R. fold k. split; auto. exists ms. auto.
      + assert (C' : negb done0 && ((length (X ++ d) <? f) || (length (X ++ d) =? 0)) = false).
        { destruct done0; auto. cbn [negb andb]. rewrite app_length. destruct (Nat.ltb_spec (length X + length d) f); [lia|]. destruct (Nat.eqb_spec (length X + length d) 0); [lia|]. reflexivity. }
        unfold so_far. rewrite C'.
        assert (ER : skipn f (X ++ d) = R ++ d) by (rewrite skipn_app_le; auto). rewrite ER.
        destruct (release_le b l (length R) Hb) as (Lk & _ & _). fold k in Lk.
        assert (Es : skipn k R ++ d = skipn k (R ++ d)) by (rewrite skipn_app_le; auto). rewrite Es.
        assert (EK : k + release b l (length (skipn k (R ++ d))) = release b l (length (R ++ d))).
        { rewrite skipn_length, app_length. replace (length R + length d - k) with (length R - k + length d) by lia. apply release_add. auto. }
        set (k2 := release b l (length (skipn k (R ++ d)))) in *. rewrite <- EK. split.
        * rewrite skipn_skipn_add, Nat.add_comm. reflexivity.
        * exists (ms ++ [SMid (firstn k2 (skipn k (R ++ d)))]). rewrite app_assoc. cbn [app]. split; [|split].
          -- rewrite firstn_app_le by auto. rewrite app_nil_r, <- app_assoc. reflexivity.
          -- apply Forall_app. split; auto. constructor; [eexists; reflexivity|constructor].
          -- rewrite map_app, concat_app, H2. cbn [map concat sdata]. rewrite app_nil_r, firstn_add. rewrite firstn_app_le by auto. reflexivity.
  Qed.
  Lemma so_far_run : forall done0 ds X ss st, (done0 = true -> f = 0) -> so_far done0 X ss st ->
    let '(ss', st') := W st (map (fun p => WPut (fst p) 0 (snd p)) ds) in so_far done0 (X ++ concat (map fst ds)) (ss ++ ss') st'.
  Proof.
    intros done0. induction ds as [|[d mo] ds IH]; intros X ss st H0 H.
    - cbn [map spec_wrun concat]. rewrite !app_nil_r. exact H.
    - cbn [map spec_wrun concat fst snd]. pose proof (so_far_step done0 X ss st d mo H0 H) as S1.
      destruct (spec_wstep f b l st (WPut d 0 mo)) as [ss1 st1]. specialize (IH _ _ _ H0 S1).
      destruct (W st1 (map (fun p => WPut (fst p) 0%Z (snd p)) ds)) as [ss2 st2]. rewrite <- !app_assoc in IH. exact IH.
  Qed.
  Lemma so_far_start : forall done0, (done0 = true -> f = 0) -> so_far done0 [] [] (done0, []).
  Proof.
    intros done0 H0. unfold so_far. cbn [length Nat.eqb]. rewrite orb_true_r. destruct done0; cbn [negb andb]; auto.
    rewrite H0 by auto. cbn [skipn length]. destruct (release_le b l 0 Hb) as (A & _ & _). replace (release b l 0) with 0 by lia. cbn [skipn firstn].
    split; auto. exists []. repeat split; auto.
  Qed.

  Lemma tail_release : forall n, n - tail_length b l n = release b l n.
  Proof.
    intros n. apply release_unique; auto; unfold tail_length.
    - destruct (Nat.leb_spec n l); [replace (n - n) with 0 by lia; apply Nat.mod_0_l; auto|].
      pose proof (Nat.div_mod (n - l) b Hb). replace (n - (l + (n - l) mod b)) with (b * ((n - l) / b)) by lia. rewrite Nat.mul_comm. apply Nat.mod_mul; auto.
    - destruct (Nat.leb_spec n l); [left; lia|right]. pose proof (Nat.mod_le (n - l) b Hb). lia.
    - destruct (Nat.leb_spec n l); [lia|]. pose proof (Nat.mod_upper_bound (n - l) b Hb). lia.
    - lia.
  Qed.

  (** The virtual calls of one message: what comes before LastPut, split between the calls, then LastPut
      and MessageEnd in the last call. *)
  Lemma message_run : forall s done0 m, (done0 = true -> f = 0) -> frep f b l s (done0, []) -> ms_end m <> 0%Z ->
    let D := ms_data m in let R := skipn f D in let k := length R - tail_length b l (length R) in
    exists es1 s1 es2 dL sL sE s2,
      fw_run s (map (fun p => WPut (fst p) 0 (snd p)) (ms_ds m)) = (es1, s1) /\
      fw_step s1 (WPut (fst (ms_last m)) (ms_end m) (snd (ms_last m))) =
        (es2 ++ [(ELast (if length D <? f then D else skipn k R), sL); (EEnd (ms_end m), sE)], s2) /\
      frep f b l sL (dL, []) /\ (length D < f -> dL = false) /\ frep f b l s2 (false, []) /\
      (if length D <? f then es1 = [] /\ es2 = []
       else exists mids, map fst (es1 ++ es2) = (if done0 then [] else [EFirst (firstn f D)]) ++ mids /\
              Forall (mid_ok b) mids /\ concat (map edata mids) = firstn k R).
  Proof.
    intros s done0 m H0 Hs He D R k. unfold k. rewrite tail_release. clear k. unfold D, ms_data, message_data in *.
    set (pre := map (fun p => WPut (fst p) 0%Z (snd p)) (ms_ds m)).
    pose proof (run_refines f b l Hb pre s (done0, []) Hs) as A.
    pose proof (so_far_run done0 (ms_ds m) [] [] (done0, []) H0 (so_far_start done0 H0)) as B. fold pre in B. cbn [app] in B.
    destruct (fw_run s pre) as [es1 s1]. destruct (W (done0, []) pre) as [ss1 st1]. destruct A as [A1 A2].
    set (X1 := concat (map fst (ms_ds m))) in *. destruct (ms_last m) as [d mo] eqn:Em. cbn [fst snd] in *.
    pose proof (step_refines f b l Hb s1 st1 (WPut d (ms_end m) mo) A2) as Q.
    pose proof (so_far_step done0 X1 ss1 st1 d mo H0 B) as B2. cbn [spec_wstep] in Q, B2.
    apply Z.eqb_neq in He. rewrite (spec_put_end f b l st1 d (ms_end m) He) in Q.
    destruct (spec_put f b l st1 d 0) as [ss2 [dL p]].
    destruct (fw_step s1 (WPut d (ms_end m) mo)) as [es s2] eqn:ES. destruct Q as [Q1 Q2].
    rewrite app_assoc in Q1. apply delivers_app_inv in Q1. destruct Q1 as (e2 & e3 & -> & D2 & D3).
    apply delivers_last_inv in D3. destruct D3 as (sL & e4 & -> & HT & D4). apply delivers_end_inv in D4. destruct D4 as (sE & e5 & -> & D5).
    apply delivers_nil_inv in D5. subst e5.
    exists es1, s1, e2, dL, sL, sE, s2. rewrite ES. set (DD := X1 ++ d) in *. unfold so_far in B2. fold R in B2.
    destruct (negb done0 && ((length DD <? f) || (length DD =? 0))) eqn:C.
    - destruct B2 as [E1 E2]. apply app_eq_nil in E1. destruct E1 as [-> ->]. inversion E2; subst dL p. cbn [app] in D2.
      apply andb_true_iff in C. destruct C as [C1 C2]. destruct done0; [discriminate|]. clear C1.
      apply delivers_nil_inv in A1. subst es1. cbn [app negb andb] in D2 |- *.
      destruct (Nat.ltb_spec (length DD) f) as [G|G].
      + destruct (Nat.eqb_spec f 0) as [?|_]; [lia|]. apply delivers_nil_inv in D2. subst e2. auto 10.
      + cbn [orb] in C2. apply Nat.eqb_eq in C2. assert (f = 0) as F0 by lia. apply length_zero_iff_nil in C2.
        subst R. rewrite C2 in *. rewrite skipn_nil. cbn [length].
        destruct (release_le b l 0 Hb) as (Lk & _ & _). replace (release b l 0) with 0 by lia. cbn [skipn firstn].
        rewrite F0 in D2. cbn [Nat.eqb] in D2. apply delivers_first_inv in D2. destruct D2 as (sF & e6 & -> & D6). apply delivers_nil_inv in D6. subst e6.
        repeat split; auto; try apply HT; try apply Q2. exists []. cbn [map app fst concat]. rewrite firstn_nil. auto.
    - destruct B2 as (E2 & ms & E1 & M1 & M2). inversion E2; subst dL p. cbn [negb andb] in D2. rewrite app_nil_r in D2.
      assert (G : (length DD <? f) = false).
      { destruct done0; [rewrite H0 by auto; reflexivity|]. cbn [negb andb] in C. apply orb_false_iff in C. apply C. }
      rewrite G. apply Nat.ltb_ge in G. split; [reflexivity|]. split; [reflexivity|]. split; [exact HT|]. split; [lia|]. split; [exact Q2|].
      assert (DA : delivers b (threw f b l) (es1 ++ e2) (ss1 ++ ss2)) by (apply delivers_app; auto). rewrite E1 in DA.
      destruct done0.
      + cbn [app] in DA |- *. apply delivers_mids in DA; auto. destruct DA as [M3 M4]. exists (map fst (es1 ++ e2)). rewrite <- M2. auto.
      + cbn [app] in DA. apply delivers_first_inv in DA. destruct DA as (sF & e6 & E6 & D6). rewrite E6. apply delivers_mids in D6; auto. destruct D6 as [M3 M4].
        exists (map fst e6). cbn [map fst app]. rewrite <- M2. auto.
  Qed.
End Message.

(* -------------------------------------------------------------------- running a derived class *)

Section Exec.
  Context {T : Type} (h : handler T).
  Lemma exec_app : forall es1 es2 t,
    exec h t (es1 ++ es2) =
    match exec h t es1 with
    | (t1, o1, Returns, _) => let '(t2, o2, r2, x2) := exec h t1 es2 in (t2, o1 ++ o2, r2, x2)
    | r => r
    end.
  Proof.
    induction es1 as [|[e s] es1 IH]; intros es2 t; cbn [app exec].
    - destruct (exec h t es2) as [[[t2 o2] r2] x2]. reflexivity.
    - destruct (h t e) as [[t1 o1] [| |]]; auto. rewrite IH. destruct (exec h t1 es1) as [[[t2 o2] [| |]] x]; auto.
      destruct (exec h t2 es2) as [[[t3 o3] r3] x3]. rewrite app_assoc. reflexivity.
  Qed.
  Lemma exec_returns : forall es t t' o x, exec h t es = (t', o, Returns, x) -> x = None.
  Proof.
    induction es as [|[e s] es IH]; intros t t' o x H; cbn [exec] in H; [inversion H; auto|].
    destruct (h t e) as [[t1 o1] [| |]]; try discriminate. destruct (exec h t1 es) as [[[t2 o2] r2] x2] eqn:E. inversion H; subst. eapply IH; eauto.
  Qed.
  Lemma filter_run_app : forall a c st, filter_run h st (a ++ c) =
    let '(xs, st1) := filter_run h st a in let '(ys, st2) := filter_run h st1 c in (xs ++ ys, st2).
  Proof.
    induction a as [|op a IH]; intros c st; cbn [app filter_run].
    - destruct (filter_run h st c). reflexivity.
    - destruct (filter_step h st op) as [st1 x]. rewrite IH. destruct (filter_run h st1 a) as [xs st2]. destruct (filter_run h st2 c). reflexivity.
  Qed.
  Lemma filter_run_ok : forall ops s t es s' t' o x, fw_run s ops = (es, s') -> exec h t es = (t', o, Returns, x) ->
    exists xs, filter_run h (s, t) ops = (xs, (s', t')) /\ Forall (fun x => snd x = Returns) xs /\ all_items xs = o.
  Proof.
    induction ops as [|op ops IH]; intros s t es s' t' o x R H.
    - cbn [fw_run] in R. inversion R; subst. cbn [exec] in H. inversion H; subst. exists []. repeat split; constructor.
    - cbn [fw_run] in R. destruct (fw_step s op) as [e1 s1] eqn:E1. destruct (fw_run s1 ops) as [e2 s2] eqn:E2. inversion R; subst es s'.
      rewrite exec_app in H. destruct (exec h t e1) as [[[t1 o1] r1] x1] eqn:X1. destruct r1; try discriminate.
      destruct (exec h t1 e2) as [[[t2 o2] r2] x2] eqn:X2. inversion H; subst.
      destruct (IH _ _ _ _ _ _ _ E2 X2) as (xs & F1 & F2 & F3).
      exists ((o1, Returns) :: xs). cbn [filter_run]. unfold filter_step. rewrite E1, X1. rewrite (exec_returns _ _ _ _ _ X1). rewrite F1.
      repeat split; auto. unfold all_items in *. cbn [map concat fst]. rewrite F3. reflexivity.
  Qed.
  Lemma filter_step_exec : forall s t op es s' t' o r x, fw_step s op = (es, s') -> exec h t es = (t', o, r, x) ->
    filter_step h (s, t) op = ((match x with Some sx => sx | None => s' end, t'), (o, r)).
  Proof. intros s t op es s' t' o r x E1 E2. unfold filter_step. rewrite E1, E2. reflexivity. Qed.

  (** One message, for a class whose FirstPut and NextPut return. *)
  Variables f b l : nat.
  Hypothesis Hb : b <> 0.
  Variable e : Z.
  Lemma message_exec : forall s done0 m t t1 o1 tL oL rL, (done0 = true -> f = 0) -> frep f b l s (done0, []) -> ms_end m <> 0%Z ->
    let D := ms_data m in let R := skipn f D in let k := length R - tail_length b l (length R) in
    (length D < f -> t1 = t /\ o1 = []) ->
    (f <= length D -> forall es mids, map fst es = (if done0 then [] else [EFirst (firstn f D)]) ++ mids -> Forall (mid_ok b) mids ->
       concat (map edata mids) = firstn k R -> exists o x, exec h t es = (t1, o, Returns, x) /\ obytes o = obytes o1) ->
    h t1 (ELast (if length D <? f then D else skipn k R)) = (tL, oL, rL) ->
    (rL = Returns -> h tL (EEnd (ms_end m)) = (tL, [OEnd (ms_end m)], Returns)) ->
    exists xs sF dF, filter_run h (s, t) (ms_ops m) = (xs, (sF, tL)) /\ ended xs rL /\ all_bytes xs = obytes o1 ++ obytes oL /\
      frep f b l sF (dF, []) /\ (rL = Returns -> dF = false) /\ (length D < f -> dF = false).
  Proof.
    intros s done0 m t t1 o1 tL oL rL H0 Hs He D R k Hshort Hlong HL HE.
    destruct (message_run f b l Hb s done0 m H0 Hs He) as (es1 & s1 & es2 & dL & sL & sE & s2 & R1 & R2 & F1 & F2 & F3 & F4).
    fold D in F2, F4, R2. fold R in F4, R2. fold k in F4, R2.
    assert (X : exists o x, exec h t (es1 ++ es2) = (t1, o, Returns, x) /\ obytes o = obytes o1).
    { destruct (Nat.ltb_spec (length D) f) as [C|C].
      - destruct F4 as [-> ->]. destruct (Hshort C) as [-> ->]. exists [], None. auto.
      - destruct F4 as (mids & M1 & M2 & M3). eapply Hlong; eauto. }
    destruct X as (oo & x & X & Xo). rewrite exec_app in X. destruct (exec h t es1) as [[[t0 oa] r0] x0] eqn:X0. destruct r0; try discriminate.
    destruct (exec h t0 es2) as [[[t2 ob] r2] x2] eqn:X2. inversion X; subst t2 oo r2 x2. clear X.
    destruct (filter_run_ok _ _ _ _ _ _ _ _ R1 X0) as (xs & G1 & G2 & G3).
    unfold ms_ops, message_ops. rewrite filter_run_app, G1. cbn [filter_run].
    assert (obytes_app : forall a c, obytes (a ++ c) = obytes a ++ obytes c).
    { induction a as [|[d|z] a IH]; intros c; cbn [app obytes]; auto. rewrite IH, app_assoc. reflexivity. }
    assert (Y : exists o2 x3, exec h t0 (es2 ++ [(ELast (if length D <? f then D else skipn k R), sL); (EEnd (ms_end m), sE)]) = (tL, ob ++ o2, rL, x3) /\
                obytes o2 = obytes oL /\ match x3 with Some sx => sx = sL /\ rL <> Returns | None => rL = Returns end).
    { rewrite exec_app, X2. cbn [exec]. rewrite HL. destruct rL.
      - rewrite HE by auto. do 2 eexists. split; [reflexivity|]. split; [|reflexivity]. rewrite obytes_app. cbn [obytes app]. apply app_nil_r.
      - do 2 eexists. split; [reflexivity|]. split; [reflexivity|]. split; [reflexivity|discriminate].
      - do 2 eexists. split; [reflexivity|]. split; [reflexivity|]. split; [reflexivity|discriminate]. }
    destruct Y as (o2 & x3 & Y1 & Y2 & Y3). rewrite (filter_step_exec _ _ _ _ _ _ _ _ _ R2 Y1).
    eexists. exists (match x3 with Some sx => sx | None => s2 end), (match x3 with Some _ => dL | None => false end). split; [reflexivity|]. split; [|split; [|split; [|split]]].
    - exists xs, (ob ++ o2). auto.
    - unfold all_bytes, all_items in *. rewrite map_app, concat_app, G3. cbn [map concat fst]. rewrite app_nil_r, app_assoc, obytes_app, Xo, Y2. reflexivity.
    - destruct x3 as [sx|]; [destruct Y3 as [-> _]; exact F1|exact F3].
    - intros ->. destruct x3 as [sx|]; auto. destruct Y3 as [_ []]; auto.
    - intros C. destruct x3 as [sx|]; auto.
  Qed.
  (** The same for a class whose state depends on how the data is split. *)
  Lemma message_exec_rel : forall s done0 m t (P : T -> list Z -> Prop) (Q : T -> outcome -> list Z -> Prop), (done0 = true -> f = 0) -> frep f b l s (done0, []) -> ms_end m <> 0%Z ->
    let D := ms_data m in let R := skipn f D in let k := length R - tail_length b l (length R) in
    (length D < f -> P t []) ->
    (f <= length D -> forall es mids, map fst es = (if done0 then [] else [EFirst (firstn f D)]) ++ mids -> Forall (mid_ok b) mids ->
       concat (map edata mids) = firstn k R -> exists t1 o x, exec h t es = (t1, o, Returns, x) /\ P t1 (obytes o)) ->
    (forall t1 o1, P t1 o1 -> exists tL oL rL, h t1 (ELast (if length D <? f then D else skipn k R)) = (tL, oL, rL) /\
       (rL = Returns -> h tL (EEnd (ms_end m)) = (tL, [OEnd (ms_end m)], Returns)) /\ Q tL rL (o1 ++ obytes oL)) ->
    exists xs sF dF tL rL, filter_run h (s, t) (ms_ops m) = (xs, (sF, tL)) /\ ended xs rL /\ Q tL rL (all_bytes xs) /\
      frep f b l sF (dF, []) /\ (rL = Returns -> dF = false) /\ (length D < f -> dF = false).
  Proof.
    intros s done0 m t P Q H0 Hs He D R k Hshort Hlong HLast.
    destruct (message_run f b l Hb s done0 m H0 Hs He) as (es1 & s1 & es2 & dL & sL & sE & s2 & R1 & R2 & F1 & F2 & F3 & F4).
    fold D in F2, F4, R2. fold R in F4, R2. fold k in F4, R2.
    assert (X : exists t1 o x, exec h t (es1 ++ es2) = (t1, o, Returns, x) /\ P t1 (obytes o)).
    { destruct (Nat.ltb_spec (length D) f) as [C|C].
      - destruct F4 as [-> ->]. exists t, [], None. auto.
      - destruct F4 as (mids & M1 & M2 & M3). eapply Hlong; eauto. }
    destruct X as (t1 & oo & x & X & Xo). rewrite exec_app in X. destruct (exec h t es1) as [[[t0 oa] r0] x0] eqn:X0. destruct r0; try discriminate.
    destruct (exec h t0 es2) as [[[t2 ob] r2] x2] eqn:X2. inversion X; subst t2 oo r2 x2. clear X.
    destruct (HLast _ _ Xo) as (tL & oL & rL & HL & HE & HQ).
    destruct (filter_run_ok _ _ _ _ _ _ _ _ R1 X0) as (xs & G1 & G2 & G3).
    unfold ms_ops, message_ops. rewrite filter_run_app, G1. cbn [filter_run].
    assert (obytes_app : forall a c, obytes (a ++ c) = obytes a ++ obytes c).
    { induction a as [|[d|z] a IH]; intros c; cbn [app obytes]; auto. rewrite IH, app_assoc. reflexivity. }
    assert (Y : exists o2 x3, exec h t0 (es2 ++ [(ELast (if length D <? f then D else skipn k R), sL); (EEnd (ms_end m), sE)]) = (tL, ob ++ o2, rL, x3) /\
                obytes o2 = obytes oL /\ match x3 with Some sx => sx = sL /\ rL <> Returns | None => rL = Returns end).
    { rewrite exec_app, X2. cbn [exec]. rewrite HL. destruct rL.
      - rewrite HE by auto. do 2 eexists. split; [reflexivity|]. split; [|reflexivity]. rewrite obytes_app. cbn [obytes app]. apply app_nil_r.
      - do 2 eexists. split; [reflexivity|]. split; [reflexivity|]. split; [reflexivity|discriminate].
      - do 2 eexists. split; [reflexivity|]. split; [reflexivity|]. split; [reflexivity|discriminate]. }
    destruct Y as (o2 & x3 & Y1 & Y2 & Y3). rewrite (filter_step_exec _ _ _ _ _ _ _ _ _ R2 Y1).
    eexists. exists (match x3 with Some sx => sx | None => s2 end), (match x3 with Some _ => dL | None => false end), tL, rL. split; [reflexivity|]. split; [|split; [|split; [|split]]].
    - exists xs, (ob ++ o2). auto.
    - replace (all_bytes (xs ++ [(ob ++ o2, rL)])) with (obytes (oa ++ ob) ++ obytes oL); auto.
      unfold all_bytes, all_items in *. rewrite map_app, concat_app, G3. cbn [map concat fst]. rewrite app_nil_r, app_assoc, (obytes_app (oa ++ ob)), Y2. reflexivity.
    - destruct x3 as [sx|]; [destruct Y3 as [-> _]; exact F1|exact F3].
    - intros ->. destruct x3 as [sx|]; auto. destruct Y3 as [_ []]; auto.
    - intros C. destruct x3 as [sx|]; auto.
  Qed.
End Exec.

(* -------------------------------------------------------------------- StreamTransformationFilter *)

Lemma obytes_app : forall a c, obytes (a ++ c) = obytes a ++ obytes c.
Proof. induction a as [|[d|z] a IH]; intros c; cbn [app obytes]; auto. rewrite IH, app_assoc. reflexivity. Qed.
Lemma mod_add0 : forall b x y, b <> 0 -> x mod b = 0 -> y mod b = 0 -> (x + y) mod b = 0.
Proof. intros b x y Hb H1 H2. rewrite Nat.add_mod, H1, H2 by auto. apply Nat.mod_0_l; auto. Qed.
Lemma mod_sub0 : forall b x y, b <> 0 -> y <= x -> x mod b = 0 -> y mod b = 0 -> (x - y) mod b = 0.
Proof.
  intros b x y Hb Hl H1 H2. apply Nat.mod_divides in H1; auto. apply Nat.mod_divides in H2; auto. destruct H1 as [u ->], H2 as [v ->].
  rewrite <- Nat.mul_sub_distr_l, Nat.mul_comm. apply Nat.mod_mul; auto.
Qed.

Section StreamFilterProofs.
  Context {C : Type} (o : stream C) (ok : C -> Prop).
  Variables (pad : padding) (opt : nat) (space : nat -> nat).
  Hypothesis Hok : stream_ok o ok.
  Hypothesis Hroom : room o ok opt space.
  Notation sz := (so_s o).
  Hypothesis Hs : sz <> 0.
  Notation h := (sf_handler o pad opt space).
  Notation proc := (so_process o).

  Lemma proc_app : forall c x y, ok c -> bytes x -> bytes y -> length x mod sz = 0 -> length y mod sz = 0 ->
    fst (proc c (x ++ y)) = fst (proc (fst (proc c x)) y) /\ snd (proc c (x ++ y)) = snd (proc c x) ++ snd (proc (fst (proc c x)) y).
  Proof.
    intros c x y Hc Hx Hy H1 H2. rewrite (sk_app _ _ Hok) by auto. destruct (proc c x) as [c1 o1]. cbn [fst snd].
    destruct (proc c1 y) as [c2 o2]. auto.
  Qed.
  Lemma proc_ok : forall c x, ok c -> bytes x -> length x mod sz = 0 ->
    ok (fst (proc c x)) /\ bytes (snd (proc c x)) /\ length (snd (proc c x)) = length x.
  Proof. intros c x Hc Hx H. pose proof (sk_step _ _ Hok c x Hc Hx H) as X. destruct (proc c x) as [c1 o1]. exact X. Qed.

  Lemma multiple_spec : forall fuel c d, ok c -> bytes d -> length d mod sz = 0 -> length d <= fuel ->
    let '(c', outs) := sf_multiple o opt space fuel c d in c' = fst (proc c d) /\ obytes outs = snd (proc c d).
  Proof.
    induction fuel as [|k IH]; intros c d Hc Hd Hm Hf; cbn [sf_multiple].
    - destruct d; [|cbn [length] in Hf; lia]. rewrite (sk_nil _ _ Hok) by auto. auto.
    - destruct (Nat.eqb_spec (length d) 0) as [E|E].
      + apply length_zero_iff_nil in E. subst d. rewrite (sk_nil _ _ Hok) by auto. auto.
      + set (len := if space (length d) <? length d then _ else length d). cbv zeta.
        assert (Hlen : 0 < len <= length d /\ len mod sz = 0).
        { unfold len. destruct Hroom as [R1 R2]. specialize (R1 (length d)). specialize (R2 c Hc).
          destruct (Nat.ltb_spec (space (length d)) (length d)) as [G|G]; [|lia].
          set (q := if space (length d) =? opt then space (length d) - so_used o c else space (length d)).
          assert (Q : sz <= q <= space (length d)) by (unfold q; destruct (Nat.eqb_spec (space (length d)) opt); lia).
          pose proof (Nat.div_mod q sz Hs). assert (1 <= q / sz) by (apply Nat.div_le_lower_bound; lia).
          pose proof (Nat.mul_comm sz (q / sz)). rewrite Nat.mod_mul by auto.
          assert (sz * 1 <= sz * (q / sz)) by (apply Nat.mul_le_mono_l; auto). lia. }
        clearbody len. destruct Hlen as [L1 L2].
        assert (Lf : length (firstn len d) = len) by (rewrite firstn_length; lia).
        assert (Hy : length (skipn len d) mod sz = 0) by (rewrite skipn_length; apply mod_sub0; auto; lia).
        pose proof (proc_app c (firstn len d) (skipn len d) Hc (bytes_firstn len d Hd) (bytes_skipn len d Hd) ltac:(rewrite Lf; auto) Hy) as [A1 A2].
        rewrite firstn_skipn in A1, A2. rewrite A1, A2.
        destruct (proc_ok c (firstn len d) Hc (bytes_firstn len d Hd) ltac:(rewrite Lf; auto)) as (B1 & _).
        destruct (proc c (firstn len d)) as [c1 out]. cbn [fst snd] in *.
        specialize (IH c1 (skipn len d) B1 (bytes_skipn len d Hd) Hy). destruct (sf_multiple o opt space k c1 (skipn len d)) as [c2 outs].
        destruct IH as [I1 I2]. { rewrite skipn_length. lia. }
        split; auto. cbn [obytes]. rewrite I2. reflexivity.
  Qed.
  Lemma next_spec : forall c mo d, ok c -> bytes d -> length d mod sz = 0 ->
    exists ob, h c (ENext mo d) = (fst (proc c d), ob, Returns) /\ obytes ob = snd (proc c d).
  Proof.
    intros c mo d Hc Hd Hm. destruct mo; cbn [sf_handler].
    - destruct (proc c d) as [c1 out]. exists [OPut out]. cbn [obytes]. rewrite app_nil_r. auto.
    - pose proof (multiple_spec (length d) c d Hc Hd Hm (Nat.le_refl _)) as M. destruct (sf_multiple o opt space (length d) c d) as [c1 out].
      destruct M as [-> M]. exists out. auto.
  Qed.
  Lemma mids_spec : forall es mids c, map fst es = mids -> Forall (mid_ok sz) mids -> ok c -> bytes (concat (map edata mids)) ->
    exists ob x, exec h c es = (fst (proc c (concat (map edata mids))), ob, Returns, x) /\ obytes ob = snd (proc c (concat (map edata mids))) /\
      length (concat (map edata mids)) mod sz = 0.
  Proof.
    induction es as [|[e s] es IH]; intros mids c <- Hm Hc Hd.
    - cbn [map concat exec length]. rewrite (sk_nil _ _ Hok) by auto. exists [], None. repeat split; auto. apply Nat.mod_0_l; auto.
    - cbn [map concat fst] in *. inversion Hm as [|? ? (mo & d & E & Hn & Hl) Hr]; subst. cbn [edata] in *. apply bytes_app in Hd. destruct Hd as [Hd1 Hd2].
      destruct (next_spec c mo d Hc Hd1 Hl) as (ob & N1 & N2). destruct (proc_ok c d Hc Hd1 Hl) as (Hc1 & _).
      destruct (IH _ (fst (proc c d)) eq_refl Hr Hc1 Hd2) as (ob2 & x & I1 & I2 & I3). cbn [exec]. rewrite N1, I1.
      destruct (proc_app c d _ Hc Hd1 Hd2 Hl I3) as [A1 A2]. rewrite A1, A2.
      do 2 eexists. split; [reflexivity|]. rewrite obytes_app, N2, I2. split; auto. rewrite app_length. apply mod_add0; auto.
  Qed.

  (** One message: the whole blocks first, the tail to LastPut. *)
  Lemma sf_message : forall l s d0 m c tL oL rL, frep 0 sz l s (d0, []) -> ms_end m <> 0%Z -> ok c -> bytes (ms_data m) ->
    let D := ms_data m in let k := length D - tail_length sz l (length D) in
    sf_last o pad (fst (proc c (firstn k D))) (skipn k D) = (tL, oL, rL) ->
    exists xs sF dF, filter_run h (s, c) (ms_ops m) = (xs, (sF, tL)) /\ ended xs rL /\ all_bytes xs = snd (proc c (firstn k D)) ++ obytes oL /\
      frep 0 sz l sF (dF, []).
  Proof.
    intros l s d0 m c tL oL rL Hf He Hc HD D k HL.
    destruct (message_exec h 0 sz l Hs s d0 m c (fst (proc c (firstn k D))) [OPut (snd (proc c (firstn k D)))] tL oL rL) as (xs & sF & dF & F1 & F2 & F3 & F4 & _); auto.
    - lia.
    - fold D. cbn [skipn]. fold k. intros _ es mids E1 E2 E3.
      assert (Bm : bytes (concat (map edata mids))) by (rewrite E3; apply bytes_firstn; auto).
      destruct d0.
      + destruct (mids_spec es mids c E1 E2 Hc Bm) as (ob & x & M1 & M2 & _). rewrite E3 in *. exists ob, x. cbn [obytes]. rewrite app_nil_r. auto.
      + destruct es as [|[e1 s1] es]; [discriminate|]. cbn [map app fst] in E1. inversion E1; subst e1.
        destruct (mids_spec es mids c ltac:(assumption) E2 Hc Bm) as (ob & x & M1 & M2 & _). rewrite E3 in *. cbn [exec]. change (h c (EFirst [])) with (c, @nil oitem, Returns). cbv iota beta. rewrite M1.
        do 2 eexists. split; [reflexivity|]. cbn [obytes app]. rewrite app_nil_r. exact M2.
    - exists xs, sF, dF. rewrite F3. cbn [obytes]. rewrite app_nil_r. auto.
  Qed.
End StreamFilterProofs.

(* -------------------------------------------------------------------- paddings *)

Section Pad.
  Context {C : Type} (o : stream C) (pad : padding).
  Notation sz := (so_s o).

  Lemma all_equal_repeat : forall v l, all_equal v l = true <-> l = repeat v (length l).
  Proof.
    induction l as [|x l IH]; cbn [all_equal forallb length repeat]; [tauto|]. fold (all_equal v l). rewrite andb_true_iff, IH, Z.eqb_eq. split.
    - intros [-> E]. rewrite <- E. reflexivity.
    - intros E. inversion E. split; auto. rewrite <- H1. rewrite H1 at 1. auto.
  Qed.
  Lemma strip_spec : forall blk n, 0 < n -> n <= length blk ->
    let m := strip_zeros blk n in 0 < m <= n /\ skipn m (firstn n blk) = repeat 0%Z (n - m) /\ (m = 1 \/ nth (m - 1) blk 0%Z <> 0%Z).
  Proof.
    intros blk n. induction n as [|n IH]; intros H1 H2; [lia|]. cbn [strip_zeros]. cbv zeta.
    destruct (Nat.ltb_spec 1 (S n)) as [G|G]; cbn [andb].
    - destruct (Z.eqb_spec (nth n blk 0%Z) 0) as [E|E].
      + destruct (IH ltac:(lia) ltac:(lia)) as (I1 & I2 & I3). split; [lia|]. split; [|exact I3].
        set (m := strip_zeros blk n) in *. rewrite (firstn_S_nth n 0%Z blk) by lia. rewrite skipn_app_le by (rewrite firstn_length; lia).
        rewrite I2, E. replace (S n - m) with (n - m + 1) by lia. rewrite repeat_app. reflexivity.
      + split; [lia|]. split.
        * rewrite skipn_all2 by (rewrite firstn_length; lia). replace (S n - S n) with 0 by lia. reflexivity.
        * right. replace (S n - 1) with n by lia. auto.
    - split; [lia|]. split; [|lia]. rewrite skipn_all2 by (rewrite firstn_length; lia). replace (S n - S n) with 0 by lia. reflexivity.
  Qed.
  Lemma nth_last : forall (d : list Z) x n, n = length d -> nth n (d ++ [x]) 0%Z = x.
  Proof. intros d x n ->. rewrite app_nth2 by lia. rewrite Nat.sub_diag. reflexivity. Qed.
  Lemma repeat_last : forall (x : Z) k, k <> 0 -> repeat x k = repeat x (k - 1) ++ [x].
  Proof. intros x k Hk. replace k with (k - 1 + 1) at 1 by lia. rewrite repeat_app. reflexivity. Qed.

  (** The check accepts exactly the valid paddings, and finds the data. *)
  Lemma unpad_complete : forall blk d, is_padding pad = true -> length blk = sz -> sz <> 0 -> valid_padding pad sz blk d ->
    unpad_length o pad blk = Some (length d) /\ firstn (length d) blk = d.
  Proof.
    intros blk d Hp Hl Hs V. unfold unpad_length, valid_padding in *. destruct pad; try discriminate.
    - destruct V as (k & Hk & ->). rewrite app_length, repeat_length in Hl. split; [|rewrite firstn_app_ge by lia; rewrite Nat.sub_diag; apply app_nil_r].
      assert (En : nth (sz - 1) (d ++ repeat (Z.of_nat k) k) 0%Z = Z.of_nat k).
      { rewrite (repeat_last (Z.of_nat k) k) by lia. rewrite app_assoc. apply nth_last. rewrite app_length, repeat_length. lia. }
      rewrite En. destruct (Z.ltb_spec (Z.of_nat k) 1); [lia|]. destruct (Z.ltb_spec (Z.of_nat sz) (Z.of_nat k)); [lia|]. cbn [orb].
      rewrite Nat2Z.id. replace (sz - k) with (length d) by lia. rewrite skipn_app_ge by lia. rewrite Nat.sub_diag. cbn [skipn].
      assert (A : all_equal (Z.of_nat k) (repeat (Z.of_nat k) k) = true) by (apply all_equal_repeat; rewrite repeat_length; reflexivity).
      rewrite A. reflexivity.
    - destruct V as (k & ->). rewrite app_length in Hl. cbn [length] in Hl. rewrite repeat_length in Hl.
      split; [|rewrite firstn_app_ge by lia; rewrite Nat.sub_diag; apply app_nil_r].
      set (blk := d ++ 128%Z :: repeat 0%Z k) in *. assert (Lb : length blk = sz) by (unfold blk; rewrite app_length; cbn [length]; rewrite repeat_length; lia).
      destruct (strip_spec blk sz) as (S1 & S2 & S3); [lia|lia|]. set (m := strip_zeros blk sz) in *. cbv zeta in *.
      assert (Hn : forall i, nth i blk 0%Z = if i <? length d then nth i d 0%Z else if i =? length d then 128%Z else 0%Z).
      { intros i. unfold blk. destruct (Nat.ltb_spec i (length d)); [apply app_nth1; auto|]. rewrite app_nth2 by lia.
        destruct (Nat.eqb_spec i (length d)) as [->|]; [rewrite Nat.sub_diag; reflexivity|].
        destruct (i - length d) as [|j] eqn:Ej; [lia|]. cbn [nth]. destruct (Nat.ltb_spec j k).
        - apply nth_repeat.
        - apply nth_overflow. rewrite repeat_length. auto. }
      assert (Em : m = length d + 1).
      { destruct (Nat.lt_trichotomy m (length d + 1)) as [G|[G|G]]; auto.
        - exfalso. rewrite firstn_all2 in S2 by lia. assert (X : nth (length d - m) (skipn m blk) 0%Z = 0%Z).
          { rewrite S2. destruct (Nat.ltb_spec (length d - m) (sz - m)); [apply nth_repeat|apply nth_overflow; rewrite repeat_length; auto]. }
          rewrite nth_skipn_add, Hn in X. replace (m + (length d - m)) with (length d) in X by lia. rewrite Nat.ltb_irrefl, Nat.eqb_refl in X. discriminate.
        - exfalso. destruct S3 as [S3|S3]; [lia|]. apply S3. rewrite Hn. destruct (Nat.ltb_spec (m - 1) (length d)); [lia|]. destruct (Nat.eqb_spec (m - 1) (length d)); [lia|]. reflexivity. }
      rewrite Em. replace (length d + 1 - 1) with (length d) by lia. rewrite Hn, Nat.ltb_irrefl, Nat.eqb_refl. reflexivity.
    - destruct V as (fill & ->). rewrite !app_length in Hl. cbn [length] in Hl.
      split; [|rewrite firstn_app_ge by lia; rewrite Nat.sub_diag; apply app_nil_r].
      assert (En : nth (sz - 1) (d ++ fill ++ [Z.of_nat (length fill + 1)]) 0%Z = Z.of_nat (length fill + 1)).
      { rewrite app_assoc. apply nth_last. rewrite app_length. lia. }
      rewrite En. destruct (Z.ltb_spec (Z.of_nat (length fill + 1)) 1); [lia|]. destruct (Z.ltb_spec (Z.of_nat sz) (Z.of_nat (length fill + 1))); [lia|]. cbn [orb].
      rewrite Nat2Z.id. f_equal. lia.
  Qed.
  Lemma unpad_sound : forall blk n, is_padding pad = true -> length blk = sz -> sz <> 0 -> unpad_length o pad blk = Some n ->
    n <= sz /\ valid_padding pad sz blk (firstn n blk).
  Proof.
    intros blk n Hp Hl Hs U. unfold unpad_length, valid_padding in *. destruct pad; try discriminate.
    - set (p := nth (sz - 1) blk 0%Z) in *. destruct (Z.ltb_spec p 1); [discriminate|]. destruct (Z.ltb_spec (Z.of_nat sz) p); [discriminate|].
      cbn [orb] in U. destruct (all_equal p (skipn (sz - Z.to_nat p) blk)) eqn:A; [|discriminate]. inversion U; subst n. split; [lia|].
      exists (Z.to_nat p). split; [lia|]. rewrite Z2Nat.id by lia. apply all_equal_repeat in A. rewrite skipn_length in A.
      replace (length blk - (sz - Z.to_nat p)) with (Z.to_nat p) in A by lia. rewrite <- A. symmetry. apply firstn_skipn.
    - destruct (strip_spec blk sz) as (S1 & S2 & S3); [lia|lia|]. set (m := strip_zeros blk sz) in *. cbv zeta in *.
      destruct (Z.eqb_spec (nth (m - 1) blk 0%Z) 128) as [E|E]; [|discriminate]. cbn [negb] in U. inversion U; subst n. split; [lia|].
      exists (sz - m). rewrite firstn_all2 in S2 by lia. rewrite <- S2. rewrite <- E.
      rewrite <- (firstn_skipn m blk) at 1. replace m with (S (m - 1)) at 1 by lia. rewrite (firstn_S_nth (m - 1) 0%Z blk) by lia. rewrite <- app_assoc. reflexivity.
    - set (p := nth (sz - 1) blk 0%Z) in *. destruct (Z.ltb_spec p 1); [discriminate|]. destruct (Z.ltb_spec (Z.of_nat sz) p); [discriminate|].
      cbn [orb] in U. inversion U; subst n. split; [lia|]. set (q := sz - Z.to_nat p) in *.
      exists (firstn (Z.to_nat p - 1) (skipn q blk)). rewrite firstn_length, skipn_length.
      replace (Nat.min (Z.to_nat p - 1) (length blk - q) + 1) with (Z.to_nat p) by lia. rewrite Z2Nat.id by lia.
      rewrite <- (firstn_skipn q blk) at 1. f_equal.
      rewrite <- (firstn_skipn (Z.to_nat p - 1) (skipn q blk)) at 1. f_equal. rewrite skipn_skipn_add.
      replace (Z.to_nat p - 1 + q) with (sz - 1) by lia.
      assert (L1 : length (skipn (sz - 1) blk) = 1) by (rewrite skipn_length; lia).
      destruct (skipn (sz - 1) blk) as [|x [|y r]] eqn:Ex; try discriminate. f_equal.
      unfold p. rewrite <- (Nat.add_0_r (sz - 1)), <- nth_skipn_add, Ex. reflexivity.
  Qed.
  Lemma pad_block_valid : forall d, is_padding pad = true -> length d < sz -> sz < 256 ->
    exists P, pad_block o pad d = d ++ P /\ length (d ++ P) = sz /\ bytes P /\ valid_padding pad sz (d ++ P) d.
  Proof.
    intros d Hp Hd Hs. unfold pad_block, valid_padding. destruct pad; try discriminate.
    - exists (repeat (Z.of_nat (sz - length d) mod 256)%Z (sz - length d)). split; [reflexivity|].
      rewrite Z.mod_small by lia. split; [rewrite app_length, repeat_length; lia|]. split.
      + apply Forall_repeat. unfold byte. lia.
      + exists (sz - length d). split; [lia|reflexivity].
    - exists (128%Z :: repeat 0%Z (sz - length d - 1)). split; [reflexivity|]. split; [rewrite app_length; cbn [length]; rewrite repeat_length; lia|]. split.
      + constructor; [unfold byte; lia|]. apply Forall_repeat. unfold byte. lia.
      + exists (sz - length d - 1). reflexivity.
    - exists (repeat 0%Z (sz - length d - 1) ++ [(Z.of_nat (sz - length d) mod 256)%Z]). split; [reflexivity|].
      rewrite Z.mod_small by lia. split; [rewrite !app_length; cbn [length]; rewrite repeat_length; lia|]. split.
      + apply bytes_app. split; [apply Forall_repeat; unfold byte; lia|]. constructor; [unfold byte; lia|constructor].
      + exists (repeat 0%Z (sz - length d - 1)). rewrite repeat_length. do 3 f_equal. lia.
  Qed.
End Pad.
