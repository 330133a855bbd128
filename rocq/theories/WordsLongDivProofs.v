(** Proofs about the loop of Divide and Divide itself. *)
From Coq Require Import ZArith List Bool Arith Lia.
From Verif Require Import Base AsnModel AsnProofs WordsSpec WordsModel WordsProofs WordsMulProofs WordsRecProofs WordsAsymProofs WordsDivProofs.
Import ListNotations.
Local Open Scope Z_scope.

(** The bit length of a word, for the two word sizes. *)
Lemma bp_spec w v : word_bits w -> 0 < v < 2 ^ w -> 1 <= bit_precision w v <= w /\ 2 ^ (bit_precision w v - 1) <= v < 2 ^ bit_precision w v.
Proof.
  intros Hw Hv. unfold bit_precision. destruct (Z.eqb_spec v 0); [lia|].
  assert (H : exists k, w = 2 ^ Z.of_nat k /\ (k <= Z.to_nat w)%nat) by (destruct Hw as [-> | ->]; [exists 5%nat|exists 6%nat]; split; try reflexivity; lia). destruct H as [k [H1 H2]].
  destruct (prec_loop_spec k (Z.to_nat w) 1 v 0 w) as (_ & B & C & D); try lia; auto. { apply Z.divide_0_r. }
  split; [lia|]. split; auto. destruct D as [D|D]; auto. rewrite D. change (2 ^ (1 - 1)) with 1. lia.
Qed.
Lemma upd_app_here (a : list Z) x y r n : length a = n -> upd n y (a ++ x :: r) = a ++ y :: r.
Proof. intros <-. induction a; cbn [length app upd]; auto. f_equal. auto. Qed.
Lemma at_app_here (a : list Z) x r n : length a = n -> at_ (a ++ x :: r) n = x.
Proof. intros <-. unfold at_. rewrite app_nth2 by lia. rewrite Nat.sub_diag. reflexivity. Qed.
Lemma sub_here (a b c : list Z) k n : length a = k -> length b = n -> sub_ k n (a ++ b ++ c) = b.
Proof. intros. unfold sub_. rewrite sa_eq by auto. apply fa_eq. auto. Qed.
Lemma two_list (l : list Z) : length l = 2%nat -> exists x y, l = [x; y].
Proof. destruct l as [|x [|y [|]]]; try discriminate. eauto. Qed.

Section LD.
Variable w : Z.
Context {Hbig : bigw w}.
Notation B := (base w).
Notation V := (wval w).
Notation W := (words w).
Notation P := (P w).

Lemma P_2 : P 2 = B * B.
Proof. unfold WordsProofs.P. change (Z.of_nat 2) with 2. ring. Qed.
Lemma V_pair x y : V [x; y] = x + y * B.
Proof. rewrite !V_cons, V_nil. ring. Qed.

Lemma bt_val t0 t1 : 0 <= t0 < B -> 0 <= t1 < B -> wd w (t0 + 1) + wd w (t1 + b2z (wd w (t0 + 1) =? 0)) * B = (t0 + t1 * B + 1) mod (B * B).
Proof.
  intros H0 H1. pose proof (B_pos w). destruct (Z.eq_dec (t0 + 1) B) as [E|E].
  - assert (E1 : wd w (t0 + 1) = 0) by (unfold wd; rewrite E; apply Z.mod_same; lia). rewrite E1. cbn [Z.eqb b2z]. destruct (Z.eq_dec (t1 + 1) B) as [E2|E2].
    + assert (E3 : wd w (t1 + 1) = 0) by (unfold wd; rewrite E2; apply Z.mod_same; lia). rewrite E3. replace (t0 + t1 * B + 1) with (B * B) by nia. rewrite Z.mod_same by nia. lia.
    + rewrite wd_small by lia. replace (t0 + t1 * B + 1) with ((t1 + 1) * B) by lia. rewrite Z.mod_small; [lia|]. split; [nia|]. apply Z.mul_lt_mono_pos_r; lia.
  - rewrite (wd_small w (t0 + 1)) by lia. destruct (Z.eqb_spec (t0 + 1) 0); [lia|]. cbn [b2z]. rewrite Z.add_0_r, wd_small by lia. rewrite Z.mod_small; [lia|]. split; [nia|].
    assert ((t1 + 1) * B <= B * B) by (apply Z.mul_le_mono_nonneg_r; lia). lia.
Qed.

(** One round of the loop: two more quotient words. *)
Lemma div_step fuel n l2 h TB t0 t1 tl : (3 <= fuel)%nat -> (1 <= n)%nat -> W l2 -> W h -> W TB -> length l2 = 2%nat -> length h = (2 * n)%nat -> length TB = (2 * n)%nat ->
  TB = tl ++ [t0; t1] -> B * B <= 2 * (t0 + t1 * B) -> V h < V TB ->
  let BT := [wd w (t0 + 1); wd w (t1 + b2z (wd w (t0 + 1) =? 0))] in
  exists q0 q1 r qq0 qq1, atomic_divide w fuel (skipn (2 * n - 2) (l2 ++ h)) BT = Some (q0, q1) /\ correct_estimate w fuel (l2 ++ h) TB q0 q1 = Some (r ++ [0; 0], qq0, qq1) /\
   W r /\ length r = (2 * n)%nat /\ 0 <= qq0 < B /\ 0 <= qq1 < B /\ V l2 + P 2 * V h = (qq0 + qq1 * B) * V TB + V r /\ V r < V TB.
Proof.
  intros Hf Hn W2 Wh WT L2 Lh LT ET HN Hh BT. pose proof (B_big w) as HB. change (2 ^ 32) with 4294967296 in HB.
  assert (Lt : length tl = (2 * n - 2)%nat) by (rewrite ET, app_length in LT; cbn [length] in LT; lia).
  pose proof WT as WT'. rewrite ET in WT'. apply W_app in WT'. destruct WT' as [Wtl WT']. apply W_cons in WT'. destruct WT' as [Bt0 WT']. apply W_cons in WT'. destruct WT' as [Bt1 _].
  assert (VT : V TB = V tl + P (2 * n - 2) * (t0 + t1 * B)) by (rewrite ET, V_app, Lt, V_pair; reflexivity).
  set (win := l2 ++ h). assert (Ww : W win) by (apply W_app; auto). assert (Lw : length win = (2 * n + 2)%nat) by (unfold win; rewrite app_length; lia).
  set (tb := t0 + t1 * B) in *. assert (tbB : tb < B * B) by (unfold tb; nia). pose proof (P_pos w (2 * n - 2)) as PX. set (X := P (2 * n - 2)) in *.
  assert (VTp : 0 < V TB) by (rewrite VT; pose proof (V_bound w _ Wtl); nia).
  assert (VW : V win = V l2 + P 2 * V h) by (unfold win; rewrite V_app, L2; reflexivity).
  pose proof (V_bound w _ W2) as B2. rewrite L2 in B2. assert (VWb : V win < V TB * (B * B)) by (rewrite VW, P_2 in *; nia).
  assert (LS : length (skipn (2 * n - 2) win) = 4%nat) by (rewrite skipn_length; lia). pose proof (V_firstn_skipn w (2 * n - 2) win ltac:(lia)) as ES. pose proof (W_skipn w (2 * n - 2) win Ww) as WS. pose proof (W_firstn w (2 * n - 2) win Ww) as WF.
  pose proof (V_bound w _ WF) as BF. rewrite firstn_length, Nat.min_l in BF by lia. fold X in BF, ES. pose proof (V_bound w _ Wtl) as BTl. rewrite Lt in BTl. fold X in BTl.
  destruct (skipn (2 * n - 2) win) as [|a0 [|a1 [|a2 [|a3 [|]]]]]; try discriminate. 
  repeat (apply W_cons in WS; let H := fresh in destruct WS as [H WS]).
  assert (VA : V [a0; a1; a2; a3] = a0 + a1 * B + (a2 + a3 * B) * B * B) by (rewrite !V_cons, V_nil; ring). rewrite VA in ES.
  assert (Top : a2 + a3 * B <= tb). { assert ((a2 + a3 * B) * (B * B) * X <= V win) by nia. assert (V TB < (tb + 1) * X) by nia. assert (V win < (tb + 1) * X * (B * B)) by nia. assert ((a2 + a3 * B) * (X * (B * B)) < (tb + 1) * (X * (B * B))) by nia. assert (0 < X * (B * B)) by nia. clear - H6 H7. nia. }
  pose proof (bt_val t0 t1 Bt0 Bt1) as EB. fold tb in EB.
  assert (WD : forall z, 0 <= wd w z < B) by (intros; apply Z.mod_pos_bound; lia).
  destruct (atomic_divide_spec w fuel a0 a1 a2 a3 _ _ tb Hf H H0 H1 H2 (WD _) (WD _) HN tbB EB Top) as (q0 & q1 & Q1 & Q2 & Q3 & Q4). fold BT in Q1. rewrite Q1.
  assert (QB : q0 + q1 * B < B * B) by (clear - Q2 Q3 HB; nia). assert (tb0 : 0 < tb) by (clear - HN HB; nia).
  assert (A4n : 0 <= a0 + a1 * B + (a2 + a3 * B) * B * B) by (clear - H H0 H1 H2 HB; assert (0 <= a1 * B) by nia; assert (0 <= a3 * B) by nia; assert (0 <= (a2 + a3 * B) * B) by nia; nia).
  assert (QT : q0 + q1 * B <= 2 * tb) by (clear - QB HN; lia).
  pose proof (est_bound X (a0 + a1 * B + (a2 + a3 * B) * B * B) (V (firstn (2 * n - 2) win)) tb (V tl) (q0 + q1 * B) PX BF BTl tb0 A4n Q4 QT) as EB2.
  replace (tb * X + V tl) with (V TB) in EB2 by (rewrite VT; ring).
  replace ((a0 + a1 * B + (a2 + a3 * B) * B * B) * X + V (firstn (2 * n - 2) win)) with (V win) in EB2 by (rewrite ES; ring).
  destruct (correct_estimate_spec w fuel win TB q0 q1 n Hf Hn Ww WT LT Lw VTp Q2 Q3 EB2 VWb) as (r & qq0 & qq1 & R1 & R2 & R3 & R4 & R5 & R6 & R7).
  exists q0, q1, r, qq0, qq1. split; auto. split; auto. split; auto. split; auto. split; auto. split; auto. rewrite <- VW. pose proof (Z.div_mod (V win) (V TB) ltac:(lia)). pose proof (Z.mod_pos_bound (V win) (V TB) VTp). rewrite <- R6, <- R7 in H3. rewrite <- R7 in H4. split; lia.
Qed.

Lemma div_loop_spec fuel n TB t0 t1 tl : (3 <= fuel)%nat -> (1 <= n)%nat -> W TB -> length TB = (2 * n)%nat -> TB = tl ++ [t0; t1] -> B * B <= 2 * (t0 + t1 * B) ->
  let BT := [wd w (t0 + 1); wd w (t1 + b2z (wd w (t0 + 1) =? 0))] in
  forall m k lo h z qh, (m <= k)%nat -> W lo -> W h -> length lo = (2 * m)%nat -> length h = (2 * n)%nat -> V h < V TB ->
  exists r ql, div_loop w fuel k (2 * m + 2 * n - 2) (lo ++ h ++ z) TB BT (repeat 0 (2 * m) ++ qh) = Some (r ++ repeat 0 (2 * m) ++ z, ql ++ qh) /\
    W r /\ W ql /\ length r = (2 * n)%nat /\ length ql = (2 * m)%nat /\ V r < V TB /\ V lo + P (2 * m) * V h = V ql * V TB + V r.
Proof.
  intros Hf Hn WT LT ET HN BT. induction m; intros k lo h z qh Hk Wl Wh Ll Lh Hh.
  - exists h, []. destruct lo; [|discriminate]. split.
    { destruct k; cbn [div_loop]; auto. rewrite LT. destruct (Nat.leb_spec (2 * n) (2 * 0 + 2 * n - 2)); [lia|]. reflexivity. }
    split; auto. split; [apply W_nil|]. split; auto. split; auto. split; auto. rewrite P_0, !V_nil. lia.
  - destruct k; [lia|]. cbn [div_loop]. rewrite LT. destruct (Nat.leb_spec (2 * n) (2 * S m + 2 * n - 2)) as [_|]; [|lia].
    assert (El : lo = firstn (2 * m) lo ++ skipn (2 * m) lo) by (symmetry; apply firstn_skipn). assert (L1 : length (firstn (2 * m) lo) = (2 * m)%nat) by (rewrite firstn_length; lia). assert (L2 : length (skipn (2 * m) lo) = 2%nat) by (rewrite skipn_length; lia).
    pose proof (W_firstn w (2 * m) lo Wl) as W1. pose proof (W_skipn w (2 * m) lo Wl) as W2. set (l1 := firstn (2 * m) lo) in *. set (l2 := skipn (2 * m) lo) in *. clearbody l1 l2. subst lo.
    destruct (div_step fuel n l2 h TB t0 t1 tl Hf Hn W2 Wh WT L2 Lh LT ET HN Hh) as (q0 & q1 & r & qq0 & qq1 & S1 & S2 & S3 & S4 & S5 & S6 & S7 & S8). fold BT in S1.
    assert (E4 : sub_ (2 * S m + 2 * n - 2 - 2) 4 ((l1 ++ l2) ++ h ++ z) = skipn (2 * n - 2) (l2 ++ h)).
    { unfold sub_. rewrite <- app_assoc. replace (2 * S m + 2 * n - 2 - 2)%nat with (length l1 + (2 * n - 2))%nat by lia. rewrite <- nth_skipn_add || idtac. replace (skipn (length l1 + (2 * n - 2)) (l1 ++ l2 ++ h ++ z)) with (skipn (2 * n - 2) (skipn (length l1) (l1 ++ l2 ++ h ++ z))) by (rewrite skipn_skipn_add; f_equal; lia).
      rewrite sa_eq by auto. rewrite app_assoc. rewrite skipn_app_le by (rewrite app_length; lia). apply fa_eq. rewrite skipn_length, app_length. lia. }
    rewrite E4, S1.
    assert (E5 : sub_ (2 * S m + 2 * n - 2 - 2 * n) (2 * n + 2) ((l1 ++ l2) ++ h ++ z) = l2 ++ h). { rewrite <- app_assoc. rewrite (app_assoc l2). apply sub_here; [lia|rewrite app_length; lia]. }
    rewrite E5, S2. replace (2 * S m + 2 * n - 2 - 2 * n)%nat with (2 * m)%nat by lia.
    assert (E6 : put (2 * m) (r ++ [0; 0]) ((l1 ++ l2) ++ h ++ z) = l1 ++ r ++ ([0; 0] ++ z)). { rewrite <- app_assoc. rewrite (app_assoc l2). rewrite put_at by (rewrite ?app_length; cbn [length]; lia). rewrite <- app_assoc. reflexivity. }
    assert (E7 : put (2 * m) [qq0; qq1] (repeat 0 (2 * S m) ++ qh) = repeat 0 (2 * m) ++ ([qq0; qq1] ++ qh)). { replace (2 * S m)%nat with (2 * m + 2)%nat by lia. rewrite repeat_app, <- app_assoc. apply put_at; [apply repeat_length|reflexivity]. }
    rewrite E6, E7. replace (2 * S m + 2 * n - 2 - 2)%nat with (2 * m + 2 * n - 2)%nat by lia.
    destruct (IHm k l1 r ([0; 0] ++ z) ([qq0; qq1] ++ qh)) as (r' & ql & R1 & R2 & R3 & R4 & R5 & R6 & R7); auto; try lia.
    exists r', (ql ++ [qq0; qq1]). split. { rewrite R1. do 2 f_equal; [|rewrite <- app_assoc; reflexivity]. f_equal. replace (2 * S m)%nat with (2 * m + 2)%nat by lia. rewrite repeat_app, <- app_assoc. reflexivity. }
    split; auto. split; [apply W_app; split; auto; repeat (apply W_cons; split; auto); apply W_nil|]. split; auto. split; [rewrite app_length; cbn [length]; lia|]. split; auto.
    rewrite !V_app, L1, R5, V_pair. replace (2 * S m)%nat with (2 * m + 2)%nat by lia. rewrite P_add.
    transitivity (V l1 + P (2 * m) * (V l2 + P 2 * V h)); [ring|]. rewrite S7. transitivity ((V l1 + P (2 * m) * V r) + P (2 * m) * (qq0 + qq1 * B) * V TB); [ring|]. rewrite R7. ring.
Qed.

Lemma cmp_win2 r x TB : W r -> W TB -> length r = length TB -> 0 <= x < B -> (negb (x =? 0) || (w_cmp r TB (length TB) >=? 0)) = (V TB <=? V r + P (length TB) * x).
Proof.
  intros. rewrite <- (cmp_win w r x TB) by auto. do 2 f_equal.
  rewrite (w_cmp_spec w _ r), (w_cmp_spec w _ (r ++ [x; 0])) by (try (apply (W_two w); auto); auto; rewrite ?app_length; cbn [length]; lia). rewrite fa_eq, (firstn_all2 r) by lia. reflexivity.
Qed.
Lemma first_loop_spec TB : W TB -> 0 < V TB -> forall fuel a r x q m NA, W r -> length r = length TB -> length a = (NA - length TB)%nat -> (length TB <= NA)%nat -> 0 <= x < B -> 0 <= q ->
  m = (V r + P (length TB) * x) / V TB -> m <= Z.of_nat fuel -> q + m < B ->
  exists r', first_loop w fuel (a ++ r ++ [x; 0]) TB NA q = Some (a ++ r' ++ [0; 0], q + m) /\ W r' /\ length r' = length TB /\ V r' = (V r + P (length TB) * x) mod V TB.
Proof.
  intros HT T0. pose proof (V_bound w _ HT) as BT. pose proof (P_pos w (length TB)) as PP. pose proof (B_big w) as HB. change (2 ^ 32) with 4294967296 in HB. set (N := length TB) in *.
  induction fuel; intros a r x q m NA Hr Lr La HN Hx Hq Hm Hf HQ; cbn [first_loop]; fold N; pose proof (V_bound w _ Hr) as Br.
  all: assert (ES : sub_ (NA - N) N (a ++ r ++ [x; 0]) = r) by (apply sub_here; auto). all: rewrite ES.
  all: assert (AT : at_ (a ++ r ++ [x; 0]) NA = x) by (rewrite app_assoc; apply at_app_here; rewrite app_length; lia). all: rewrite AT.
  all: pose proof (cmp_win2 r x TB Hr HT Lr Hx) as CW; fold N in CW.
  all: rewrite CW.
  - assert (0 <= m) by (rewrite Hm; apply Z.div_pos; nia). assert (m = 0) by lia.
    assert (LT : V r + P N * x < V TB) by (pose proof (Z.div_mod (V r + P N * x) (V TB) ltac:(lia)) as DM; pose proof (Z.mod_pos_bound (V r + P N * x) (V TB) T0); rewrite <- Hm in DM; nia).
    destruct (Z.leb_spec (V TB) (V r + P N * x)); [lia|]. assert (x = 0) by nia. subst x.
    exists r. split; [do 2 f_equal; lia|]. split; auto. split; auto. rewrite Z.mod_small; lia.
  - destruct (Z.leb_spec (V TB) (V r + P N * x)) as [LE|LT].
    + pose proof (sub_win w r x TB Hr HT Lr Hx LE) as SW. destruct (w_sub w r TB) as [y k]. destruct SW as (y1 & y2 & y3 & y4). fold N in y2, y4.
      rewrite put_at by lia. rewrite app_assoc. rewrite upd_app_here by (rewrite app_length; lia). rewrite (wd_small w (x - k)) by lia. rewrite <- app_assoc.
      assert (Em : (V y + P N * (x - k)) / V TB = m - 1). { rewrite y4, Hm. replace (V r + P N * x - V TB) with (V r + P N * x + (-1) * V TB) by ring. rewrite Z.div_add by lia. lia. }
      assert (Er : (V y + P N * (x - k)) mod V TB = (V r + P N * x) mod V TB). { rewrite y4. replace (V r + P N * x - V TB) with (V r + P N * x + (-1) * V TB) by ring. apply Z.mod_add. lia. }
      pose proof (V_bound w _ y1) as By. assert (0 <= m - 1) by (rewrite <- Em; apply Z.div_pos; nia). rewrite (wd_small w (q + 1)) by lia.
      destruct (IHfuel a y (x - k) (q + 1) (m - 1) NA y1 y2 La HN y3 ltac:(lia) ltac:(lia) ltac:(lia) ltac:(lia)) as (r' & R1 & R2 & R3 & R4).
      exists r'. rewrite R1. split; [do 2 f_equal; lia|]. split; auto. split; auto. rewrite R4. auto.
    + assert (x = 0) by nia. subst x. assert (m = 0) by (rewrite Hm; apply Z.div_small; lia). exists r. split; [do 2 f_equal; lia|]. split; auto. split; auto. rewrite Z.mod_small; lia.
Qed.

(** The divisor after normalisation. *)
Lemma normalise n Bd sw sb TB : word_bits w -> W Bd -> length Bd = (2 * n)%nat -> (1 <= n)%nat -> (at_ Bd (2 * n - 1) <> 0 \/ at_ Bd (2 * n - 2) <> 0) ->
  sw = (if at_ Bd (2 * n - 1) =? 0 then 1%nat else 0%nat) -> sb = w - bit_precision w (at_ (repeat 0 sw ++ firstn (2 * n - sw) Bd) (2 * n - 1)) ->
  TB = fst (shl_bits w (repeat 0 sw ++ firstn (2 * n - sw) Bd) sb) ->
  0 <= sb < w /\ (sw <= 1)%nat /\ W TB /\ length TB = (2 * n)%nat /\ V TB = V Bd * (P sw * 2 ^ sb) /\ exists tl t0 t1, TB = tl ++ [t0; t1] /\ length tl = (2 * n - 2)%nat /\ B <= 2 * t1 /\ 0 <= t0 < B /\ 0 <= t1 < B.
Proof.
  intros Hwb HB LB Hn Hnz Esw Esb ETB. pose proof (B_big w) as HBB. change (2 ^ 32) with 4294967296 in HBB.
  set (U := repeat 0 sw ++ firstn (2 * n - sw) Bd) in *.
  assert (sw1 : (sw <= 1)%nat) by (rewrite Esw; destruct (at_ Bd (2 * n - 1) =? 0); lia).
  assert (WU : W U) by (apply W_app; split; [apply (W_repeat0 w)|apply W_firstn; auto]). assert (LU : length U = (2 * n)%nat) by (unfold U; rewrite app_length, repeat_length, firstn_length; lia).
  assert (TU : at_ U (2 * n - 1) <> 0 /\ V U = V Bd * P sw).
  { unfold U. destruct (Z.eqb_spec (at_ Bd (2 * n - 1)) 0) as [E|E]; rewrite Esw.
    - destruct Hnz as [|Hnz]; [contradiction|]. cbn [repeat app]. split.
      + unfold at_. replace (2 * n - 1)%nat with (S (2 * n - 2)) by lia. cbn [nth]. change (nth (2 * n - 2) (firstn (S (2 * n - 2)) Bd) 0) with (at_ (firstn (S (2 * n - 2)) Bd) (2 * n - 2)). rewrite at_firstn by lia. auto.
      + rewrite V_cons, P_1. rewrite (V_split1 w (2 * n - 1) Bd) by lia. rewrite E. ring.
    - cbn [repeat app]. rewrite Nat.sub_0_r, firstn_all2 by lia. split; auto. rewrite P_0. ring. }
  destruct TU as [TU VU]. pose proof (W_at w U (2 * n - 1) WU) as Bt. set (t := at_ U (2 * n - 1)) in *.
  destruct (bp_spec w t Hwb ltac:(unfold base in Bt; lia)) as [P1 P2]. set (p := bit_precision w t) in *. assert (Hsb : 0 <= sb < w) by lia. split; auto. split; auto.
  destruct (shl_bits_spec w U sb Hsb WU) as (s1 & s2 & s3 & s4). rewrite <- ETB in s1, s2, s4. rewrite LU in s2, s4.
  assert (p2sb : 0 < 2 ^ sb) by (apply Z.pow_pos_nonneg; lia).
  assert (SP : 2 ^ p * 2 ^ sb = B) by (unfold base; rewrite <- Z.pow_add_r by lia; f_equal; lia). assert (SP1 : 2 ^ (p - 1) * 2 ^ sb * 2 = B) by (rewrite <- SP; replace p with (p - 1 + 1) at 2 by lia; rewrite Z.pow_add_r by lia; ring).
  pose proof (V_split1 w (2 * n - 1) U ltac:(lia)) as SU. fold t in SU. pose proof (V_bound w _ (W_firstn w (2 * n - 1) U WU)) as BF. rewrite firstn_length, Nat.min_l in BF by lia. pose proof (P_pos w (2 * n - 1)) as PP.
  assert (PB : P (2 * n) = P (2 * n - 1) * B) by (replace (2 * n)%nat with (S (2 * n - 1)) at 1 by lia; rewrite P_S; ring).
  assert (C0 : snd (shl_bits w U sb) = 0).
  { assert (V U * 2 ^ sb < P (2 * n)). { rewrite PB, <- SP. assert (V U < P (2 * n - 1) * 2 ^ p) by nia. nia. } pose proof (V_bound w _ s1) as BV. rewrite s2 in BV. nia. }
  rewrite C0, Z.mul_0_r, Z.add_0_r in s4. split; auto. split; auto. split. { rewrite s4, VU. ring. }
  assert (LSk : length (skipn (2 * n - 2) TB) = 2%nat) by (rewrite skipn_length; lia). pose proof (W_skipn w (2 * n - 2) TB s1) as WSk.
  destruct (two_list _ LSk) as (t0 & t1 & ES). exists (firstn (2 * n - 2) TB), t0, t1. rewrite <- ES, firstn_skipn. split; auto. split; [rewrite firstn_length; lia|].
  rewrite ES in WSk. apply W_cons in WSk. destruct WSk as [Bt0 WSk]. apply W_cons in WSk. destruct WSk as [Bt1 _]. split; [|auto].
  pose proof (V_split1 w (2 * n - 1) TB ltac:(lia)) as ST. assert (AT : at_ TB (2 * n - 1) = t1). { rewrite <- (firstn_skipn (2 * n - 2) TB), ES. replace [t0; t1] with ([t0] ++ [t1]) by reflexivity. rewrite app_assoc. apply at_app_here. rewrite app_length, firstn_length. cbn [length]. lia. }
  rewrite AT in ST. pose proof (V_bound w _ (W_firstn w (2 * n - 1) TB s1)) as BF2. rewrite firstn_length, Nat.min_l in BF2 by lia.
  assert (LE : P (2 * n - 1) * (2 ^ (p - 1) * 2 ^ sb) <= V TB) by (rewrite s4, SU; nia).
  rewrite ST in LE. assert (2 ^ (p - 1) * 2 ^ sb <= t1) by nia. lia.
Qed.

(** Divide: the quotient and remainder, and the correction loops run at most three times. *)
Theorem w_divide_spec fuel n m A Bd : word_bits w -> (3 <= fuel)%nat -> W A -> W Bd -> length A = (2 * m)%nat -> length Bd = (2 * n)%nat -> (1 <= n <= m)%nat ->
  (at_ Bd (2 * n - 1) <> 0 \/ at_ Bd (2 * n - 2) <> 0) ->
  exists R Q, w_divide w fuel A Bd = Some (R, Q) /\ W R /\ W Q /\ length R = (2 * n)%nat /\ length Q = (2 * m - 2 * n + 2)%nat /\ V R = V A mod V Bd /\ V Q = V A / V Bd.
Proof.
  intros Hwb Hf HA HB LA LB Hn Hnz. pose proof (B_big w) as HBB. change (2 ^ 32) with 4294967296 in HBB. unfold w_divide. rewrite LA, LB.
  set (sw := if at_ Bd (2 * n - 1) =? 0 then 1%nat else 0%nat). set (U := repeat 0 sw ++ firstn (2 * n - sw) Bd). set (sb := w - bit_precision w (at_ U (2 * n - 1))). set (TB := fst (shl_bits w U sb)).
  destruct (normalise n Bd sw sb TB Hwb HB LB ltac:(lia) Hnz eq_refl eq_refl eq_refl) as (Hsb & Hsw & WT & LT & VT & tl & t0 & t1 & ET & Ltl & Nt1 & Bt0 & Bt1). clearbody TB sb sw. clear U.
  assert (p2sb : 0 < 2 ^ sb) by (apply Z.pow_pos_nonneg; lia). assert (p2sb' : 2 * 2 ^ sb <= B). { unfold base. rewrite <- Z.pow_succ_r by lia. apply Z.pow_le_mono_r; lia. }
  set (S := P sw * 2 ^ sb) in *. assert (S0 : 0 < S) by (unfold S; pose proof (P_pos w sw); nia).
  assert (TN : B * B <= 2 * (t0 + t1 * B)) by nia.
  pose proof (P_pos w (2 * n - 2)) as PX. assert (PN : P (2 * n) = P (2 * n - 2) * (B * B)) by (replace (2 * n)%nat with (2 * n - 2 + 2)%nat at 1 by lia; rewrite P_add, P_2; reflexivity).
  pose proof WT as WT'. rewrite ET in WT'. apply W_app in WT'. destruct WT' as [Wtl _]. pose proof (V_bound w _ Wtl) as Btl. rewrite Ltl in Btl.
  assert (VT2 : V TB = V tl + P (2 * n - 2) * (t0 + t1 * B)) by (rewrite ET, V_app, Ltl, V_pair; reflexivity).
  assert (TBn : P (2 * n) <= 2 * V TB) by (rewrite PN, VT2; nia). assert (VTp : 0 < V TB) by (pose proof (P_pos w (2 * n)); lia).
  assert (VBp : 0 < V Bd) by (rewrite VT in VTp; nia).
  (* the dividend *)
  set (TA0 := put sw A (repeat 0 (2 * m + 2))).
  assert (ETA0 : TA0 = repeat 0 sw ++ A ++ repeat 0 (2 - sw)). { unfold TA0. replace (2 * m + 2)%nat with (sw + (2 * m + (2 - sw)))%nat by lia. rewrite !repeat_app. apply put_at; rewrite repeat_length; lia. }
  assert (WTA0 : W TA0) by (rewrite ETA0; apply W_app; split; [apply (W_repeat0 w)|apply W_app; split; auto; apply (W_repeat0 w)]). assert (LTA0 : length TA0 = (2 * m + 2)%nat) by (rewrite ETA0, !app_length, !repeat_length; lia).
  assert (VTA0 : V TA0 = V A * P sw) by (rewrite ETA0, !V_app, !V_repeat0, repeat_length; ring).
  destruct (shl_bits_spec w TA0 sb Hsb WTA0) as (s1 & s2 & s3 & s4). set (TA := fst (shl_bits w TA0 sb)) in *. rewrite LTA0 in s2, s4.
  pose proof (V_bound w _ HA) as BA. rewrite LA in BA. pose proof (P_pos w (2 * m)) as PM.
  assert (PM2 : P (2 * m + 2) = P (2 * m) * (B * B)) by (rewrite P_add, P_2; reflexivity).
  assert (Psw : 1 <= P sw <= B) by (assert (sw = 0%nat \/ sw = 1%nat) as [-> | ->] by lia; [rewrite P_0|rewrite P_1]; lia).
  assert (SB : 2 * S <= B * B). { unfold S. assert (P sw * (2 * 2 ^ sb) <= B * B) by (apply Z.mul_le_mono_nonneg; lia). lia. }
  assert (ATS : 2 * (V A * S) < P (2 * m) * (B * B)) by nia.
  assert (C0 : snd (shl_bits w TA0 sb) = 0). { pose proof (V_bound w _ s1) as BV. rewrite s2 in BV. rewrite VTA0 in s4. rewrite PM2 in *. replace (V A * P sw * 2 ^ sb) with (V A * S) in s4 by (unfold S; ring). clear - s3 s4 BV ATS PM HBB. assert (0 <= V TA + P (2 * m) * (B * B) * snd (shl_bits w TA0 sb)) by nia. assert (0 < P (2 * m) * (B * B)) by nia. nia. }
  rewrite C0, Z.mul_0_r, Z.add_0_r, VTA0 in s4. replace (V A * P sw * 2 ^ sb) with (V A * S) in s4 by (unfold S; ring). clearbody TA. clear C0 s3 ETA0 WTA0 LTA0 VTA0 TA0.
  (* the loop *)
  assert (Fin : forall k lo h z ql0 j, (j <= k)%nat -> W lo -> W h -> length lo = (2 * j)%nat -> length h = (2 * n)%nat -> V h < V TB -> W ql0 -> (2 * j + length ql0 = 2 * m - 2 * n + 2)%nat -> (2 <= 2 * j + length z)%nat ->
     V A * S = V lo + P (2 * j) * V h + P (2 * j) * V ql0 * V TB -> V (repeat 0 (2 * j) ++ z) = 0 -> W z ->
     exists R Q, match div_loop w fuel k (2 * j + 2 * n - 2) (lo ++ h ++ z) TB [wd w (t0 + 1); wd w (t1 + b2z (wd w (t0 + 1) =? 0))] (repeat 0 (2 * j) ++ ql0) with
       | None => None | Some (TA, Q) => Some (shr_bits w (sub_ sw (2 * n) TA) sb, Q) end = Some (R, Q) /\ W R /\ W Q /\ length R = (2 * n)%nat /\ length Q = (2 * m - 2 * n + 2)%nat /\ V R = V A mod V Bd /\ V Q = V A / V Bd).
  { intros k lo h z ql0 j Hk Wl Wh Ll Lh Hh Wq Lq Lz E Ez Wz.
    destruct (div_loop_spec fuel n TB t0 t1 tl Hf ltac:(lia) WT LT ET TN j k lo h z ql0 Hk Wl Wh Ll Lh Hh) as (r & ql & R1 & R2 & R3 & R4 & R5 & R6 & R7).
    rewrite R1. set (z' := repeat 0 (2 * j) ++ z) in *. assert (Wz' : W z') by (apply W_app; split; auto; apply (W_repeat0 w)). assert (Lz' : (2 <= length z')%nat) by (unfold z'; rewrite app_length, repeat_length; lia).
    assert (WS : W (sub_ sw (2 * n) (r ++ z'))) by (apply sub_W, W_app; auto). assert (LS : length (sub_ sw (2 * n) (r ++ z')) = (2 * n)%nat) by (apply sub_len; rewrite app_length; lia).
    destruct (shr_bits_spec w _ sb Hsb WS) as (h1 & h2 & h3). rewrite LS in h2.
    pose proof (V_bound w _ R2) as Br. pose proof (P_pos w (length r)).
    assert (VS : V (sub_ sw (2 * n) (r ++ z')) = V r / P sw).
    { unfold sub_. rewrite <- (V_mod_P w) by (try apply W_skipn; try apply W_app; auto; rewrite skipn_length, app_length; lia).
      rewrite <- (V_div_P w) by (try apply W_app; auto; rewrite app_length; lia). rewrite V_app, Ez, Z.mul_0_r, Z.add_0_r. apply Z.mod_small. rewrite R4 in Br. split; [apply Z.div_pos; lia|]. apply Z.div_lt_upper_bound; [lia|]. clear - Br Psw. nia. }
    assert (EA : V A * S = (V ql + P (2 * j) * V ql0) * V TB + V r) by (rewrite E; lia).
    assert (VQ : V (ql ++ ql0) = V ql + P (2 * j) * V ql0) by (rewrite V_app, R5; reflexivity). rewrite <- VQ, VT in EA.
    assert (Dr : exists r', V r = r' * S). { exists (V A - V (ql ++ ql0) * V Bd). rewrite Z.mul_sub_distr_r. lia. } destruct Dr as [r' Er].
    assert (EA2 : V A = V (ql ++ ql0) * V Bd + r'). { rewrite Er in EA. apply (Z.mul_reg_r _ _ S); lia. }
    assert (Br' : 0 <= r' < V Bd). { rewrite Er, VT in R6. split; [|apply (Z.mul_lt_mono_pos_r S); auto]. rewrite Er in Br. clear - Br S0. nia. }
    assert (VR : V (shr_bits w (sub_ sw (2 * n) (r ++ z')) sb) = r'). { rewrite h3, VS, Z.div_div by lia. fold S. rewrite Er. apply Z.div_mul. lia. }
    exists (shr_bits w (sub_ sw (2 * n) (r ++ z')) sb), (ql ++ ql0). split; auto. split; auto. split; [apply W_app; auto|]. split; auto. split; [rewrite app_length; lia|].
    rewrite VR. split; [apply Z.mod_unique with (V (ql ++ ql0)); lia|apply Z.div_unique with r'; lia]. }
  (* the start *)
  assert (ATT : at_ TB (2 * n - 2) = t0 /\ at_ TB (2 * n - 1) = t1). { rewrite ET. split; [apply at_app_here; auto|]. change [t0; t1] with ([t0] ++ [t1]). rewrite app_assoc. apply at_app_here. rewrite app_length. cbn [length]. lia. }
  destruct ATT as [AT0 AT1]. rewrite AT0, AT1.
  destruct ((at_ TA (2 * m + 1) =? 0) && (at_ TA (2 * m) <=? 1)) eqn:C.
  - apply andb_true_iff in C. destruct C as [C1 C2]. apply Z.eqb_eq in C1. apply Z.leb_le in C2.
    assert (LSk : length (skipn (2 * m) TA) = 2%nat) by (rewrite skipn_length; lia). destruct (two_list _ LSk) as (x & y & ES).
    assert (ETA : TA = firstn (2 * m - 2 * n) TA ++ sub_ (2 * m - 2 * n) (2 * n) TA ++ [x; y]). { rewrite <- ES. rewrite <- (firstn_skipn (2 * m - 2 * n) TA) at 1. f_equal. unfold sub_. rewrite <- (firstn_skipn (2 * n) (skipn (2 * m - 2 * n) TA)) at 1. f_equal. rewrite skipn_skipn_add. f_equal. lia. }
    assert (La : length (firstn (2 * m - 2 * n) TA) = (2 * m - 2 * n)%nat) by (rewrite firstn_length; lia). assert (Lr : length (sub_ (2 * m - 2 * n) (2 * n) TA) = (2 * n)%nat) by (apply sub_len; lia).
    assert (Wa : W (firstn (2 * m - 2 * n) TA)) by (apply W_firstn; auto). assert (Wr : W (sub_ (2 * m - 2 * n) (2 * n) TA)) by (apply sub_W; auto).
    set (a := firstn (2 * m - 2 * n) TA) in *. set (r := sub_ (2 * m - 2 * n) (2 * n) TA) in *. clearbody a r. rewrite ETA in C1, C2, s1, s4. 
    assert (X1 : at_ (a ++ r ++ [x; y]) (2 * m) = x) by (rewrite app_assoc; apply at_app_here; rewrite app_length; lia). assert (Y1 : at_ (a ++ r ++ [x; y]) (2 * m + 1) = y) by (change [x; y] with ([x] ++ [y]); rewrite !app_assoc; apply at_app_here; rewrite !app_length; cbn [length]; lia).
    rewrite X1 in C2. rewrite Y1 in C1. subst y. apply W_app in s1. destruct s1 as [_ s1]. apply W_app in s1. destruct s1 as [_ s1]. apply W_cons in s1. destruct s1 as [Bx _].
    rewrite !V_app, La, Lr, V_pair, Z.mul_0_l, Z.add_0_r in s4.
    pose proof (V_bound w _ Wr) as Br. rewrite Lr in Br. pose proof (P_pos w (2 * n)) as PN0. set (qv := (V r + P (2 * n) * x) / V TB).
    assert (Q4 : 0 <= qv < 4) by (unfold qv; split; [apply Z.div_pos; [clear - Br PN0 Bx; nia|lia]|apply Z.div_lt_upper_bound; [lia|clear - Br PN0 Bx TBn C2; nia]]).
    destruct (first_loop_spec TB WT VTp fuel a r x 0 qv (2 * m) Wr ltac:(lia) ltac:(lia) ltac:(lia) Bx ltac:(lia) ltac:(unfold qv; rewrite LT; reflexivity) ltac:(lia) ltac:(lia)) as (r' & R1 & R2 & R3 & R4).
    rewrite LT in R3, R4. rewrite ETA, R1. cbn [Z.add].
    assert (EQ0 : upd (2 * m - 2 * n) qv (repeat 0 (2 * m - 2 * n + 2)) = repeat 0 (2 * (m - n)) ++ [qv; 0]). { rewrite repeat_app. change (repeat 0 2) with [0; 0]. rewrite upd_app_here by apply repeat_length. do 2 f_equal. lia. }
    rewrite EQ0. replace (2 * m - 2)%nat with (2 * (m - n) + 2 * n - 2)%nat by lia.
    pose proof (Z.div_mod (V r + P (2 * n) * x) (V TB) ltac:(lia)) as DM. pose proof (Z.mod_pos_bound (V r + P (2 * n) * x) (V TB) VTp) as MB. fold qv in DM. rewrite <- R4 in DM, MB.
    apply Fin; auto; try lia.
    + repeat (apply W_cons; split; [lia|]). apply W_nil.
    + cbn [length]. lia.
    + cbn [length]. lia.
    + rewrite V_pair, Z.mul_0_l, Z.add_0_r. replace (2 * (m - n))%nat with (2 * m - 2 * n)%nat by lia. rewrite <- s4, DM. ring.
    + rewrite V_app, V_repeat0, V_pair. ring.
    + repeat (apply W_cons; split; [lia|]). apply W_nil.
  - assert (ETA : TA = firstn (2 * m + 2 - 2 * n) TA ++ skipn (2 * m + 2 - 2 * n) TA ++ []) by (rewrite app_nil_r; symmetry; apply firstn_skipn).
    assert (La : length (firstn (2 * m + 2 - 2 * n) TA) = (2 * (m + 1 - n))%nat) by (rewrite firstn_length; lia). assert (Lr : length (skipn (2 * m + 2 - 2 * n) TA) = (2 * n)%nat) by (rewrite skipn_length; lia).
    pose proof (V_firstn_skipn w (2 * m + 2 - 2 * n) TA ltac:(lia)) as ES. pose proof (V_div_P w TA (2 * m + 2 - 2 * n) s1 ltac:(lia)) as ED.
    rewrite ETA. replace (2 * m + 2 - 2)%nat with (2 * (m + 1 - n) + 2 * n - 2)%nat by lia. replace (repeat 0 (2 * m - 2 * n + 2)) with (repeat 0 (2 * (m + 1 - n)) ++ []) by (rewrite app_nil_r; f_equal; lia).
    apply Fin; auto; try lia.
    + apply W_firstn; auto.
    + apply W_skipn; auto.
    + rewrite <- ED, s4. apply Z.div_lt_upper_bound; [apply (P_pos w)|]. assert (P (2 * m) * (B * B) = P (2 * m + 2 - 2 * n) * P (2 * n)) by (rewrite <- PM2, <- P_add; f_equal; lia). pose proof (P_pos w (2 * m + 2 - 2 * n)). clear - H H0 TBn ATS. nia.
    + apply W_nil.
    + cbn [length]. lia.
    + rewrite V_nil, Z.mul_0_r, Z.mul_0_l, Z.add_0_r. rewrite <- s4, ES. do 3 f_equal. lia.
    + rewrite app_nil_r. apply V_repeat0.
    + apply W_nil.
Qed.
End LD.
