(** Proofs about the product of operands of different sizes. *)
From Coq Require Import ZArith List Bool Arith Lia.
From Verif Require Import Base AsnModel AsnProofs WordsSpec WordsModel WordsProofs WordsMulProofs WordsRecProofs.
Import ListNotations.
Local Open Scope Z_scope.

Lemma fa_eq {A} (k : nat) (a b : list A) : length a = k -> firstn k (a ++ b) = a.
Proof. intros <-. apply firstn_app_exact. Qed.
Lemma sa_eq {A} (k : nat) (a b : list A) : length a = k -> skipn k (a ++ b) = b.
Proof. intros <-. apply skipn_app_exact. Qed.

Section Asym.
Variable w : Z.
Context {Hbig : bigw w}.
Notation B := (base w).
Notation V := (wval w).
Notation W := (words w).
Notation P := (P w).

(** ** AsymmetricMultiply *)
Fixpoint evs (NA m i : nat) (Y : list Z) : Z :=
  match m with O => 0 | S m' => V (sub_ i NA Y) + P (2 * NA) * evs NA m' (i + 2 * NA) Y end.
Lemma sub_W k n l : W l -> W (sub_ k n l).
Proof. intros. apply W_firstn, W_skipn. auto. Qed.
Lemma sub_len k n (l : list Z) : (k + n <= length l)%nat -> length (sub_ k n l) = n.
Proof. intros. unfold sub_. rewrite firstn_length, skipn_length. lia. Qed.
Lemma put_at k (x a b c : list Z) : length a = k -> length b = length x -> put k x (a ++ b ++ c) = a ++ x ++ c.
Proof.
  intros H1 H2. unfold put. rewrite fa_eq by auto. f_equal. f_equal. rewrite skipn_app_ge by lia. rewrite sa_eq by lia. reflexivity.
Qed.
Lemma sub_app a n (x y z : list Z) : length x = a -> length y = n -> sub_ a n (x ++ y ++ z) = y.
Proof. intros. unfold sub_. rewrite sa_eq by auto. apply fa_eq. auto. Qed.
Lemma sub_app' a n (x y : list Z) : length x = a -> length y = n -> sub_ a n (x ++ y) = y.
Proof. intros. unfold sub_. rewrite sa_eq by auto. apply firstn_all2. lia. Qed.
Lemma V_sub_add i a b Y : (i + a + b <= length Y)%nat -> V (sub_ i (a + b) Y) = V (sub_ i a Y) + P a * V (sub_ (i + a) b Y).
Proof.
  intros. unfold sub_. rewrite firstn_add, V_app, firstn_length, skipn_length, Nat.min_l by lia. rewrite skipn_skipn_add. do 5 f_equal. lia.
Qed.
Lemma evs_split NA Y : forall m i, (i + 2 * NA * m <= length Y)%nat -> V (sub_ i (2 * NA * m) Y) = evs NA m i Y + P NA * evs NA m (i + NA) Y.
Proof.
  induction m; intros i H. { replace (2 * NA * 0)%nat with 0%nat by lia. cbn [evs]. change (V (sub_ i 0 Y)) with 0. lia. }
  replace (2 * NA * S m)%nat with (NA + (NA + 2 * NA * m))%nat by lia. rewrite V_sub_add, V_sub_add by lia. cbn [evs].
  replace (i + NA + NA)%nat with (i + 2 * NA)%nat by lia. rewrite IHm by lia. replace (2 * NA)%nat with (NA + NA)%nat by lia. rewrite P_add. replace (i + (NA + NA) + NA)%nat with (i + NA + (NA + NA))%nat by lia. ring.
Qed.
Lemma mul_every_spec k NA NB off A Y : (1 <= k)%nat -> NA = (2 ^ k)%nat -> W A -> W Y -> length A = NA -> length Y = NB -> forall m fuel i a b c, (m <= fuel)%nat ->
  length a = (off + i)%nat -> length b = (2 * NA * m)%nat -> (NB <= i + 2 * NA * m)%nat -> (m <> 0%nat -> i + 2 * NA * m <= NB + NA)%nat ->
  exists y, mul_every w fuel i NB off A Y (a ++ b ++ c) = a ++ y ++ c /\ length y = (2 * NA * m)%nat /\ W y /\ V y = V A * evs NA m i Y.
Proof.
  intros Hk EN HA HY LA LY. assert (N0 : (0 < NA)%nat) by (subst NA; pose proof (Nat.pow_nonzero 2 k); lia). induction m; intros fuel i a b c Hf Ha Hb H1 H2.
  - exists []. replace (2 * NA * 0)%nat with 0%nat in * by lia. destruct b; [|discriminate]. split; [|split; [auto|split; [apply W_nil|cbn [evs]; rewrite V_nil; lia]]].
    destruct fuel; cbn [mul_every]; auto. destruct (Nat.ltb_spec i NB); auto. lia.
  - destruct fuel; [lia|]. cbn [mul_every]. rewrite LA. specialize (H2 ltac:(lia)). assert (D : (2 * NA * S m = 2 * NA + 2 * NA * m)%nat) by lia. destruct (Nat.ltb_spec i NB); [|nia].
    assert (LS : length (sub_ i NA Y) = NA) by (apply sub_len; lia).
    destruct (w_mul_spec w k A (sub_ i NA Y) Hk HA (sub_W _ _ _ HY)) as (M1 & M2 & M3); try lia. rewrite <- EN in M2. set (x := w_mul w A (sub_ i NA Y)) in *.
    assert (EP : put (off + i) x (a ++ b ++ c) = (a ++ x) ++ skipn (2 * NA) b ++ c).
    { replace b with (firstn (2 * NA) b ++ skipn (2 * NA) b) at 1 by apply firstn_skipn. rewrite <- (app_assoc (firstn (2 * NA) b)). rewrite put_at; [|lia|rewrite firstn_length; lia]. apply app_assoc. }
    rewrite EP.
    destruct (IHm fuel (i + 2 * NA)%nat (a ++ x) (skipn (2 * NA) b) c) as (y & Y1 & Y2 & Y3 & Y4); try lia. { rewrite app_length. lia. } { rewrite skipn_length. lia. }
    exists (x ++ y). rewrite Y1. split; [rewrite !app_assoc; reflexivity|]. split; [rewrite app_length; lia|]. split; [apply W_app; auto|]. rewrite V_app, M2, M3, Y4. cbn [evs]. ring.
Qed.
Lemma asym_fin NA NB R S : (0 < NA)%nat -> (NA <= NB)%nat -> W R -> W S -> length R = (NA + NB)%nat -> length S = (NB - NA)%nat -> V R + P NA * V S < P (NA + NB) ->
  let X := (let '(s, c) := w_add w (sub_ NA (NB - NA) R) S in let R := put NA s R in if c =? 0 then R else put NB (fst (w_inc w (sub_ NB NA R) 1)) R) in
  W X /\ length X = (NA + NB)%nat /\ V X = V R + P NA * V S.
Proof.
  intros H0 H1 HR HS LR LS Bd X.
  assert (E : R = firstn NA R ++ sub_ NA (NB - NA) R ++ skipn NB R). { rewrite <- (firstn_skipn NA R) at 1. f_equal. rewrite <- (firstn_skipn (NB - NA) (skipn NA R)) at 1. unfold sub_. f_equal. rewrite skipn_skipn_add. f_equal. lia. }
  assert (L0 : length (firstn NA R) = NA) by (rewrite firstn_length; lia). assert (L1 : length (sub_ NA (NB - NA) R) = (NB - NA)%nat) by (apply sub_len; lia). assert (L2 : length (skipn NB R) = NA) by (rewrite skipn_length; lia).
  pose proof (W_firstn w NA R HR) as W0. pose proof (sub_W NA (NB - NA) R HR) as W1. pose proof (W_skipn w NB R HR) as W2.
  unfold X. clear X. set (r0 := firstn NA R) in *. set (r1 := sub_ NA (NB - NA) R) in *. set (r2 := skipn NB R) in *. clearbody r0 r1 r2. subst R.
  destruct (w_add_spec w r1 S) as (a1 & a2 & a3 & a4); auto; try lia. destruct (w_add w r1 S) as [s c]. cbn [fst snd] in *. rewrite put_at by lia.
  rewrite !V_app, L0, L1 in Bd. rewrite L1 in a4. assert (Pq : P (NA + NB) = P NA * P (NB - NA) * P NA) by (rewrite <- !P_add; f_equal; lia). pose proof (P_pos w NA) as PA. pose proof (P_pos w (NB - NA)) as PB.
  destruct (Z.eqb_spec c 0) as [C|C].
  - split; [apply W_app; split; auto; apply W_app; auto|]. split; [rewrite !app_length; lia|]. rewrite !V_app, L0, a2, L1. rewrite C in a4. clear - a4. nia.
  - assert (C1 : c = 1) by lia. subst c. rewrite (app_assoc r0). rewrite <- (app_nil_r r2). rewrite sub_app by (try rewrite app_length; lia).
    destruct (w_inc_spec w r2 1 W2 ltac:(intros ->; cbn in L2; lia) ltac:(pose proof (B_big w); lia)) as (z1 & z2 & z3 & z4). destruct (w_inc w r2 1) as [r2' k]. cbn [fst snd] in *. rewrite put_at by (try rewrite app_length; lia).
    rewrite !app_nil_r. split; [apply W_app; split; auto; apply W_app; auto|]. split; [rewrite !app_length; lia|]. rewrite !V_app, app_length, L0, L1, a2, L1, P_add. rewrite L2 in z4.
    pose proof (V_bound w _ W0). pose proof (V_bound w _ a1). pose proof (V_bound w _ z1).
    assert (K : V r0 + P NA * (V s + P (NB - NA) * (V r2' + P NA * k)) = V r0 + P NA * (V r1 + P (NB - NA) * V r2) + P NA * V S). { rewrite z4. transitivity (V r0 + P NA * ((V s + P (NB - NA) * 1) + P (NB - NA) * V r2)); [ring|]. rewrite a4. ring. }
    rewrite Pq, <- K in Bd. assert (k = 0); [|subst k; rewrite <- K; ring].
    assert (0 <= P NA * (V s + P (NB - NA) * V r2')) by (repeat (apply Z.mul_nonneg_nonneg || apply Z.add_nonneg_nonneg); lia).
    assert (P NA * P (NB - NA) * P NA * k < P NA * P (NB - NA) * P NA * 1) by lia. assert (0 < P NA * P (NB - NA) * P NA) by (repeat apply Z.mul_pos_pos; auto). clear - z3 H5 H6. nia.
Qed.
Lemma asym_core k q A Y : (1 <= k)%nat -> (2 <= q)%nat -> W A -> W Y -> length A = (2 ^ k)%nat -> length Y = (2 ^ k * q)%nat ->
  let NA := length A in let NB := length Y in
  let X := (let R := repeat 0 (NA + NB) in let T := repeat 0 (NA + NB) in
      let '(R, T) :=
        if (Nat.even (NB / NA))
        then let R := put 0 (w_mul w A (sub_ 0 NA Y)) R in
             let T := put (2 * NA) (sub_ NA NA R) T in
             let T := mul_every w NB (2 * NA) NB NA A Y T in
             (mul_every w NB NA NB 0 A Y R, T)
        else (mul_every w NB 0 NB 0 A Y R, mul_every w NB NA NB NA A Y T) in
      let '(s, c) := w_add w (sub_ NA (NB - NA) R) (sub_ (2 * NA) (NB - NA) T) in
      let R := put NA s R in
      if c =? 0 then R else put NB (fst (w_inc w (sub_ NB NA R) 1)) R) in
  W X /\ length X = (NA + NB)%nat /\ V X = V A * V Y.
Proof.
  intros Hk Hq HA HY LA LY NA NB X. unfold X. clear X. cbv zeta. fold NA in LA. fold NB in LY. assert (N0 : (0 < NA)%nat) by (rewrite LA; pose proof (Nat.pow_nonzero 2 k); lia).
  rewrite <- LA in LY. assert (ND : (NB / NA = q)%nat) by (rewrite LY, Nat.mul_comm; apply Nat.div_mul; lia). rewrite ND.
  pose proof (V_bound w _ HA) as BA. pose proof (V_bound w _ HY) as BY. fold NA in BA. fold NB in BY.
  assert (BT : V A * V Y < P (NA + NB)) by (rewrite P_add; apply Z.mul_lt_mono_nonneg; lia).
  assert (Hh : forall R T S, W R -> W S -> length R = (NA + NB)%nat -> length S = (NB - NA)%nat -> sub_ (2 * NA) (NB - NA) T = S -> V R + P NA * V S = V A * V Y ->
     W (let '(s, c) := w_add w (sub_ NA (NB - NA) R) (sub_ (2 * NA) (NB - NA) T) in if c =? 0 then put NA s R else put NB (fst (w_inc w (sub_ NB NA (put NA s R)) 1)) (put NA s R)) /\
     length (let '(s, c) := w_add w (sub_ NA (NB - NA) R) (sub_ (2 * NA) (NB - NA) T) in if c =? 0 then put NA s R else put NB (fst (w_inc w (sub_ NB NA (put NA s R)) 1)) (put NA s R)) = (NA + NB)%nat /\
     V (let '(s, c) := w_add w (sub_ NA (NB - NA) R) (sub_ (2 * NA) (NB - NA) T) in if c =? 0 then put NA s R else put NB (fst (w_inc w (sub_ NB NA (put NA s R)) 1)) (put NA s R)) = V A * V Y).
  { intros R T S WR WS LR LS ES EV. rewrite ES, <- EV. apply asym_fin; auto; [rewrite LY; nia|rewrite EV; exact BT]. }
  destruct (Nat.even q) eqn:Ev.
  - apply Nat.even_spec in Ev. destruct Ev as [m Em]. destruct m as [|m]; [lia|].
    assert (Lb : (NB = 2 * NA + 2 * NA * m)%nat) by nia.
    assert (LS : length (sub_ 0 NA Y) = NA) by (apply sub_len; fold NB; lia).
    destruct (w_mul_spec w k A (sub_ 0 NA Y) Hk HA (sub_W _ _ _ HY)) as (M1 & M2 & M3); try lia. rewrite <- LA in M2. set (x := w_mul w A (sub_ 0 NA Y)) in *. clearbody x.
    assert (ERep : repeat 0 (NA + NB) = repeat 0 NA ++ repeat 0 NA ++ repeat 0 NA ++ repeat 0 (2 * NA * m)) by (rewrite <- !repeat_app; f_equal; lia).
    rewrite !ERep.
    assert (EX : x = firstn NA x ++ skipn NA x) by (symmetry; apply firstn_skipn). assert (Lx0 : length (firstn NA x) = NA) by (rewrite firstn_length; lia). assert (Lx1 : length (skipn NA x) = NA) by (rewrite skipn_length; lia).
    pose proof (W_firstn w NA x M1) as Wx0. pose proof (W_skipn w NA x M1) as Wx1. set (x0 := firstn NA x) in *. set (x1 := skipn NA x) in *. clearbody x0 x1.
    assert (ER : put 0 x (repeat 0 NA ++ repeat 0 NA ++ repeat 0 NA ++ repeat 0 (2 * NA * m)) = x0 ++ x1 ++ repeat 0 NA ++ repeat 0 (2 * NA * m)).
    { unfold put. cbn [firstn app]. rewrite (app_assoc (repeat 0 NA)). rewrite sa_eq by (rewrite app_length, !repeat_length; lia). rewrite EX, <- app_assoc. reflexivity. }
    rewrite ER. rewrite sub_app by auto.
    replace (repeat 0 NA ++ repeat 0 NA ++ repeat 0 NA ++ repeat 0 (2 * NA * m)) with ((repeat 0 NA ++ repeat 0 NA) ++ repeat 0 NA ++ repeat 0 (2 * NA * m)) by (rewrite <- app_assoc; reflexivity).
    rewrite put_at by (rewrite ?app_length, !repeat_length; lia).
    destruct (mul_every_spec k NA NB NA A Y Hk LA HA HY eq_refl eq_refl m NB (2 * NA)%nat ((repeat 0 NA ++ repeat 0 NA) ++ x1) (repeat 0 (2 * NA * m)) []) as (ye & E1 & E2 & E3 & E4); try nia.
    { rewrite !app_length, !repeat_length. lia. } { apply repeat_length. }
    rewrite !app_nil_r in E1. rewrite <- app_assoc in E1. rewrite E1.
    destruct (mul_every_spec k NA NB 0 A Y Hk LA HA HY eq_refl eq_refl (S m) NB NA x0 (x1 ++ repeat 0 NA ++ repeat 0 (2 * NA * m)) []) as (yo & O1 & O2 & O3 & O4); try nia.
    { rewrite !app_length, !repeat_length. lia. }
    rewrite !app_nil_r in O1. rewrite O1.
    apply Hh with (x1 ++ ye); try (apply W_app; auto); try (rewrite ?app_length; lia).
    { rewrite <- !app_assoc. rewrite app_assoc. apply sub_app'; rewrite app_length, ?repeat_length; lia. }
    rewrite !V_app, Lx0, Lx1, O4, E4.
    assert (VX : V x0 + P NA * V x1 = V A * V (sub_ 0 NA Y)) by (rewrite <- M3, EX, V_app, Lx0; reflexivity).
    transitivity (V x0 + P NA * V x1 + V A * (P NA * evs NA (S m) NA Y + P NA * P NA * evs NA m (2 * NA) Y)); [ring|]. rewrite VX.
    assert (VY : V Y = V (sub_ 0 (2 * NA * S m) Y)). { unfold sub_. cbn [skipn]. rewrite firstn_all2; auto. fold NB. lia. }
    rewrite VY, evs_split by (fold NB; lia). cbn [evs Nat.add]. replace (2 * NA)%nat with (NA + NA)%nat by lia. rewrite P_add. ring.
  - assert (Od : Nat.odd q = true) by (rewrite <- Nat.negb_even, Ev; auto). apply Nat.odd_spec in Od. destruct Od as [m Em]. assert (1 <= m)%nat by lia.
    assert (Lb : (NB = NA + 2 * NA * m)%nat) by nia.
    destruct (mul_every_spec k NA NB 0 A Y Hk LA HA HY eq_refl eq_refl (S m) NB 0%nat [] (repeat 0 (NA + NB)) []) as (yo & O1 & O2 & O3 & O4); try nia.
    { reflexivity. } { rewrite repeat_length. lia. }
    rewrite !app_nil_r in O1. cbn [app] in O1. rewrite O1.
    destruct (mul_every_spec k NA NB NA A Y Hk LA HA HY eq_refl eq_refl m NB NA (repeat 0 (NA + NA)) (repeat 0 (2 * NA * m)) []) as (ye & E1 & E2 & E3 & E4); try nia; try apply repeat_length.
    rewrite !app_nil_r in E1. rewrite <- repeat_app in E1. replace (NA + NA + 2 * NA * m)%nat with (NA + NB)%nat in E1 by lia. rewrite E1.
    apply Hh with ye; auto; try lia.
    { apply sub_app'; rewrite ?repeat_length; lia. }
    rewrite O4, E4.
    assert (VY : V Y = evs NA (S m) 0 Y + P NA * evs NA m NA Y).
    { transitivity (V (sub_ 0 (NA + 2 * NA * m) Y)). { unfold sub_. cbn [skipn]. rewrite firstn_all2; auto. fold NB. lia. } rewrite V_sub_add, evs_split by (fold NB; lia). cbn [evs Nat.add]. replace (2 * NA)%nat with (NA + NA)%nat by lia. rewrite P_add. ring. }
    rewrite VY. ring.
Qed.
Lemma asym_lt k q A Y : (1 <= k)%nat -> (2 <= q)%nat -> W A -> W Y -> length A = (2 ^ k)%nat -> length Y = (2 ^ k * q)%nat ->
  W (w_asym w false A Y) /\ length (w_asym w false A Y) = (length A + length Y)%nat /\ V (w_asym w false A Y) = V A * V Y.
Proof.
  intros Hk Hq HA HY LA LY. unfold w_asym. assert (N0 : (0 < 2 ^ k)%nat) by (pose proof (Nat.pow_nonzero 2 k); lia). assert (H : (length A < length Y)%nat) by (rewrite LA, LY; nia).
  destruct (Nat.eqb_spec (length A) (length Y)); [lia|]. destruct (Nat.ltb_spec (length Y) (length A)); [lia|]. cbv zeta.
  destruct (Nat.eqb_spec (length A) 2) as [E|E]; cbn [andb].
  2:{ apply (asym_core k q); auto. }
  destruct (Z.eqb_spec (at_ A 1) 0) as [E1|E1].
  2:{ apply (asym_core k q); auto. }
  destruct A as [|a0 [|a1 [|]]]; cbn in E; try discriminate. unfold at_ in *. cbn [nth] in *. subst a1. apply W_cons in HA. destruct HA as [Ha0 _].
  assert (VA : V [a0; 0] = a0) by (rewrite !V_cons, V_nil; lia). rewrite VA. pose proof (B_pos w). cbn [length].
  assert (WZ : forall c, 0 <= c < B -> W [c; 0]) by (intros; repeat (apply W_cons; split; [lia|]); apply W_nil).
  destruct (Z.eqb_spec a0 0).
  { split; [apply (W_repeat0 w)|]. rewrite repeat_length, V_repeat0. split; lia. }
  destruct (Z.eqb_spec a0 1).
  { split; [apply W_app; split; auto; apply WZ; pose proof (B_big w); lia|]. rewrite app_length, V_app. cbn [length]. rewrite !V_cons, V_nil. split; lia. }
  destruct (linear_spec w Y a0 HY Ha0) as (l1 & l2 & l3 & l4). destruct (linear_multiply w Y a0) as [C c]. cbn [fst snd] in *.
  split; [apply W_app; split; auto|]. rewrite app_length, V_app. cbn [length]. rewrite !V_cons, V_nil, l2. split; lia.
Qed.
(** AsymmetricMultiply: one length divides the other. [same] may hold only when the operands are the same. *)
Theorem w_asym_spec k q same A Y : (1 <= k)%nat -> (1 <= q)%nat -> W A -> W Y -> (same = true -> A = Y) ->
  (length A = (2 ^ k)%nat /\ length Y = (2 ^ k * q)%nat \/ length Y = (2 ^ k)%nat /\ length A = (2 ^ k * q)%nat) ->
  W (w_asym w same A Y) /\ length (w_asym w same A Y) = (length A + length Y)%nat /\ V (w_asym w same A Y) = V A * V Y.
Proof.
  intros Hk Hq HA HY Hs HL. assert (N0 : (0 < 2 ^ k)%nat) by (pose proof (Nat.pow_nonzero 2 k); lia).
  destruct (Nat.eq_dec q 1) as [->|Q1].
  { assert (LA : length A = (2 ^ k)%nat) by lia. assert (LY : length Y = (2 ^ k)%nat) by lia. unfold w_asym. rewrite LA, LY, Nat.eqb_refl. destruct same.
    - rewrite <- (Hs eq_refl). replace (2 ^ k + 2 ^ k)%nat with (2 * 2 ^ k)%nat by lia. apply w_squ_spec; auto.
    - replace (2 ^ k + 2 ^ k)%nat with (2 * 2 ^ k)%nat by lia. apply w_mul_spec; auto. }
  assert (2 <= q)%nat by lia.
  destruct HL as [[LA LY]|[LY LA]].
  - replace (w_asym w same A Y) with (w_asym w false A Y). { apply (asym_lt k q); auto. } unfold w_asym. destruct (Nat.eqb_spec (length A) (length Y)); auto. rewrite LA, LY in e. nia.
  - replace (w_asym w same A Y) with (w_asym w false Y A). { rewrite (Z.mul_comm (V A)), (Nat.add_comm (length A)). apply (asym_lt k q); auto. }
    assert (length Y < length A)%nat by (rewrite LA, LY; nia). unfold w_asym. destruct (Nat.eqb_spec (length Y) (length A)); [lia|]. destruct (Nat.eqb_spec (length A) (length Y)); [lia|]. destruct (Nat.ltb_spec (length A) (length Y)); [lia|]. destruct (Nat.ltb_spec (length Y) (length A)); [|lia]. reflexivity.
Qed.
End Asym.
