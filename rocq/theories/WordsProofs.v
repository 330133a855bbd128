(** Proofs about word arrays: addition, subtraction, comparison, shifts, counts. *)
From Coq Require Import ZArith List Bool Arith Lia Znumtheory.
From Verif Require Import Base AsnModel AsnProofs WordsSpec WordsModel.
Import ListNotations.
Local Open Scope Z_scope.

Lemma firstn_put0 : forall (x R : list Z), put 0 x R = x ++ skipn (length x) R.
Proof. intros. reflexivity. Qed.

(** The only fact about the word size used below. *)
Class bigw (w : Z) : Prop := big_w : 32 <= w.

Section WP.
Variable w : Z.
Context {Hbig : bigw w}.
Lemma Hw : 32 <= w.
Proof. exact Hbig. Qed.
Notation B := (base w).
(** The weight of digit [n]. *)
Definition P (n : nat) : Z := base w ^ Z.of_nat n.

Lemma B_big : 2 ^ 32 <= B.
Proof. pose proof Hw. unfold base. apply Z.pow_le_mono_r; lia. Qed.
Lemma B_pos : 0 < B.
Proof. pose proof B_big. lia. Qed.
Lemma B_half : B = 2 * 2 ^ (w - 1).
Proof. pose proof Hw. unfold base. rewrite <- Z.pow_succ_r by lia. f_equal. lia. Qed.
Lemma P_0 : P 0 = 1.
Proof. reflexivity. Qed.
Lemma P_1 : P 1 = B.
Proof. unfold P. change (Z.of_nat 1) with 1. apply Z.pow_1_r. Qed.
Lemma P_S : forall n, P (S n) = B * P n.
Proof. intros. unfold P. rewrite Nat2Z.inj_succ, Z.pow_succ_r by lia. reflexivity. Qed.
Lemma P_add : forall a b, P (a + b) = P a * P b.
Proof. intros. unfold P. rewrite Nat2Z.inj_add, Z.pow_add_r by lia. reflexivity. Qed.
Lemma P_pos : forall n, 0 < P n.
Proof. intros. unfold P. apply Z.pow_pos_nonneg; [apply B_pos|lia]. Qed.
Lemma P_mono : forall a b, (a <= b)%nat -> P a <= P b.
Proof. intros. unfold P. pose proof B_pos. apply Z.pow_le_mono_r; lia. Qed.
Lemma P_pow2 : forall n, P n = 2 ^ (w * Z.of_nat n).
Proof. pose proof Hw. intros. unfold P, base. rewrite <- Z.pow_mul_r by lia. reflexivity. Qed.

Notation V := (wval w).
Notation W := (words w).
Lemma V_nil : V [] = 0. Proof. reflexivity. Qed.
Lemma V_cons : forall x r, V (x :: r) = x + B * V r. Proof. reflexivity. Qed.
Lemma W_cons : forall x r, W (x :: r) <-> 0 <= x < B /\ W r.
Proof. intros. unfold words. split; [intros H; inversion H; auto|intros [? ?]; constructor; auto]. Qed.
Lemma W_nil : W []. Proof. constructor. Qed.
Lemma W_app : forall a b, W (a ++ b) <-> W a /\ W b.
Proof. intros. apply Forall_app. Qed.
Lemma W_firstn : forall n l, W l -> W (firstn n l).
Proof. intros n l H. unfold words in *. rewrite <- (firstn_skipn n l) in H. apply Forall_app in H. apply H. Qed.
Lemma W_skipn : forall n l, W l -> W (skipn n l).
Proof. intros n l H. unfold words in *. rewrite <- (firstn_skipn n l) in H. apply Forall_app in H. apply H. Qed.
Lemma W_repeat0 : forall n, W (repeat 0 n).
Proof. intros. apply Forall_repeat. fold (base w). pose proof B_pos. lia. Qed.
Lemma W_at : forall l i, W l -> 0 <= at_ l i < B.
Proof.
  intros l i H. unfold at_. destruct (Nat.ltb_spec i (length l)).
  - unfold words in H. rewrite Forall_forall in H. apply H. apply nth_In. auto.
  - rewrite nth_overflow by auto. pose proof B_pos. lia.
Qed.
Lemma W_upd : forall i x l, W l -> 0 <= x < B -> W (upd i x l).
Proof. induction i; destruct l; intros H Hx; cbn [upd]; auto; apply W_cons in H; apply W_cons; intuition. Qed.
Lemma V_app : forall a b, V (a ++ b) = V a + P (length a) * V b.
Proof. induction a; intros; cbn [app length]. { rewrite P_0, V_nil. lia. } rewrite !V_cons, IHa, P_S. ring. Qed.
Lemma V_bound : forall l, W l -> 0 <= V l < P (length l).
Proof.
  induction l; intros H. { rewrite V_nil. cbn. rewrite P_0. lia. } apply W_cons in H. destruct H as [Ha H]. apply IHl in H.
  cbn [length]. rewrite V_cons, P_S. pose proof B_pos. nia.
Qed.
Lemma V_repeat0 : forall n, V (repeat 0 n) = 0.
Proof. induction n; auto. cbn [repeat]. rewrite V_cons, IHn. lia. Qed.
Lemma V_firstn_skipn : forall n l, (n <= length l)%nat -> V l = V (firstn n l) + P n * V (skipn n l).
Proof. intros. rewrite <- (firstn_skipn n l) at 1. rewrite V_app, firstn_length, Nat.min_l by auto. reflexivity. Qed.
Lemma V_inj : forall a b, W a -> W b -> length a = length b -> V a = V b -> a = b.
Proof.
  induction a; destruct b; intros Ha Hb L E; cbn in L; try lia; auto. apply W_cons in Ha, Hb. rewrite !V_cons in E. pose proof B_pos.
  assert (a = z) by (apply (f_equal (fun x => x mod B)) in E; rewrite !(Z.mul_comm B), !Z.mod_add, !Z.mod_small in E; lia || tauto).
  subst. f_equal. apply IHa; try tauto; try lia. nia.
Qed.
Lemma V_zero : forall l, W l -> V l = 0 -> l = repeat 0 (length l).
Proof. intros. apply V_inj; auto using W_repeat0; rewrite ?repeat_length, ?V_repeat0; auto. Qed.
Lemma V_upd : forall i x l, (i < length l)%nat -> V (upd i x l) = V l + P i * (x - at_ l i).
Proof.
  induction i; destruct l; intros H; cbn [length] in H; try lia; cbn [upd].
  - rewrite !V_cons, P_0. unfold at_. cbn [nth]. lia.
  - rewrite !V_cons, IHi, P_S by lia. unfold at_. cbn [nth]. ring.
Qed.
Lemma upd_len : forall i x (l : list Z), length (upd i x l) = length l.
Proof. induction i; destruct l; cbn; auto. Qed.
Lemma V_mod_P : forall l n, W l -> (n <= length l)%nat -> V l mod P n = V (firstn n l).
Proof.
  intros. rewrite (V_firstn_skipn n l) by auto. rewrite Z.mul_comm, Z.mod_add by (pose proof (P_pos n); lia). apply Z.mod_small.
  pose proof (V_bound (firstn n l) (W_firstn n l H)). rewrite firstn_length, Nat.min_l in H1 by auto. auto.
Qed.
Lemma V_div_P : forall l n, W l -> (n <= length l)%nat -> V l / P n = V (skipn n l).
Proof.
  intros. rewrite (V_firstn_skipn n l) by auto. rewrite Z.mul_comm, Z.div_add by (pose proof (P_pos n); lia). rewrite Z.div_small; [lia|].
  pose proof (V_bound (firstn n l) (W_firstn n l H)). rewrite firstn_length, Nat.min_l in H1 by auto. auto.
Qed.
Lemma at_0 : forall x r, at_ (x :: r) 0 = x. Proof. reflexivity. Qed.
Lemma at_S : forall x r i, at_ (x :: r) (S i) = at_ r i. Proof. reflexivity. Qed.
Lemma at_app1 : forall a b i, (i < length a)%nat -> at_ (a ++ b) i = at_ a i.
Proof. intros. apply app_nth1; auto. Qed.
Lemma at_app2 : forall a b i, (length a <= i)%nat -> at_ (a ++ b) i = at_ b (i - length a).
Proof. intros. apply app_nth2; auto. Qed.
Lemma at_firstn : forall l n i, (i < n)%nat -> at_ (firstn n l) i = at_ l i.
Proof. intros. unfold at_. apply nth_firstn_lt. auto. Qed.
Lemma at_skipn : forall l n i, at_ (skipn n l) i = at_ l (n + i).
Proof. intros. unfold at_. revert n. induction l; intros [|n]; cbn; auto; destruct i; auto. Qed.
Lemma V_split1 : forall n l, length l = S n -> V l = V (firstn n l) + P n * at_ l n.
Proof.
  intros n l H. rewrite (V_firstn_skipn n l) by lia. f_equal. f_equal.
  destruct (skipn n l) as [|x [|y r]] eqn:E; [apply (f_equal (@length Z)) in E; rewrite skipn_length in E; cbn in E; lia| |apply (f_equal (@length Z)) in E; rewrite skipn_length in E; cbn in E; lia].
  rewrite V_cons, V_nil. replace n with (n + 0)%nat by lia. rewrite <- at_skipn, E. cbn. lia.
Qed.

(** ** Truncation *)
Lemma wd_range : forall x, 0 <= wd w x < B.
Proof. intros. unfold wd. apply Z.mod_pos_bound. apply B_pos. Qed.
Lemma wd_small : forall x, 0 <= x < B -> wd w x = x.
Proof. intros. apply Z.mod_small; auto. Qed.
Lemma wd_cases : forall x, 0 <= x < 2 * B -> (x < B /\ wd w x = x) \/ (B <= x /\ wd w x = x - B).
Proof.
  intros x H. destruct (Z.ltb_spec x B). { left. split; auto. apply wd_small. lia. }
  right. split; auto. unfold wd. symmetry. apply Z.mod_unique with 1; lia.
Qed.
Lemma wd_neg_cases : forall x, - B <= x < B -> (0 <= x /\ wd w x = x) \/ (x < 0 /\ wd w x = x + B).
Proof.
  intros x H. destruct (Z.leb_spec 0 x). { left. split; auto. apply wd_small. lia. }
  right. split; auto. unfold wd. symmetry. apply Z.mod_unique with (-1); lia.
Qed.
Lemma b2z_range : forall b, 0 <= b2z b <= 1.
Proof. intros []; cbn; lia. Qed.

(** ** Addition and subtraction *)
Lemma add_loop_spec : forall A B' u, W A -> W B' -> length A = length B' -> 0 <= u <= 1 ->
  let '(C, c) := add_loop w u A B' in W C /\ length C = length A /\ 0 <= c <= 1 /\ V C + P (length A) * c = V A + V B' + u.
Proof.
  induction A; destruct B' as [|b B']; intros u HA HB L Hu; cbn in L; try lia.
  { cbn [add_loop]. split; [apply W_nil|]. split; auto. split; auto. rewrite V_nil. cbn [length]. rewrite P_0. lia. }
  apply W_cons in HA, HB. destruct HA as [Ha HA], HB as [Hb HB]. cbn [add_loop].
  set (t := wd w (a + b)). set (u0 := wd w (t + u)). set (u1 := b2z (t <? a) + b2z (u0 <? t)).
  assert (E : 0 <= u1 <= 1 /\ u0 + B * u1 = a + b + u).
  { pose proof B_big as HB32. unfold u1, b2z. destruct (wd_cases (a + b) ltac:(lia)) as [[H1 H2]|[H1 H2]]; fold t in H2; destruct (wd_cases (t + u) ltac:(pose proof (wd_range (a + b)); fold t in H; lia)) as [[H3 H4]|[H3 H4]]; fold u0 in H4;
    destruct (Z.ltb_spec t a), (Z.ltb_spec u0 t); nia. }
  specialize (IHA B' u1 HA HB ltac:(lia) ltac:(lia)). destruct (add_loop w u1 A B') as [C c]. destruct IHA as (X1 & X2 & X3 & X4).
  split; [apply W_cons; split; auto; apply wd_range|]. split; [cbn; lia|]. split; auto. cbn [length]. rewrite !V_cons, P_S. nia.
Qed.
Lemma w_add_spec : forall A B', W A -> W B' -> length A = length B' ->
  W (fst (w_add w A B')) /\ length (fst (w_add w A B')) = length A /\ 0 <= snd (w_add w A B') <= 1 /\
  V (fst (w_add w A B')) + P (length A) * snd (w_add w A B') = V A + V B'.
Proof.
  intros A B' H1 H2 H3. unfold w_add. pose proof (add_loop_spec A B' 0 H1 H2 H3 ltac:(lia)) as H. destruct (add_loop w 0 A B'). cbn [fst snd].
  destruct H as (X1 & X2 & X3 & X4). repeat (split; auto); lia.
Qed.
Lemma sub_loop_spec : forall A B' u, W A -> W B' -> length A = length B' -> 0 <= u <= 1 ->
  let '(C, c) := sub_loop w u A B' in W C /\ length C = length A /\ 0 <= c <= 1 /\ V C - P (length A) * c = V A - V B' - u.
Proof.
  induction A; destruct B' as [|b B']; intros u HA HB L Hu; cbn in L; try lia.
  { cbn [sub_loop]. split; [apply W_nil|]. split; auto. split; auto. rewrite V_nil. cbn [length]. rewrite P_0. lia. }
  apply W_cons in HA, HB. destruct HA as [Ha HA], HB as [Hb HB]. cbn [sub_loop].
  set (t := wd w (a - b)). set (u0 := wd w (t - u)). set (u1 := b2z (t >? a) + b2z (u0 >? t)).
  assert (E : 0 <= u1 <= 1 /\ u0 - B * u1 = a - b - u).
  { pose proof B_big as HB32. unfold u1, b2z. rewrite !Z.gtb_ltb. destruct (wd_neg_cases (a - b) ltac:(lia)) as [[H1 H2]|[H1 H2]]; fold t in H2; destruct (wd_neg_cases (t - u) ltac:(pose proof (wd_range (a - b)); fold t in H; lia)) as [[H3 H4]|[H3 H4]]; fold u0 in H4;
    destruct (Z.ltb_spec a t), (Z.ltb_spec t u0); nia. }
  specialize (IHA B' u1 HA HB ltac:(lia) ltac:(lia)). destruct (sub_loop w u1 A B') as [C c]. destruct IHA as (X1 & X2 & X3 & X4).
  split; [apply W_cons; split; auto; apply wd_range|]. split; [cbn; lia|]. split; auto. cbn [length]. rewrite !V_cons, P_S. nia.
Qed.
Lemma w_sub_spec : forall A B', W A -> W B' -> length A = length B' ->
  W (fst (w_sub w A B')) /\ length (fst (w_sub w A B')) = length A /\ 0 <= snd (w_sub w A B') <= 1 /\
  V (fst (w_sub w A B')) - P (length A) * snd (w_sub w A B') = V A - V B'.
Proof.
  intros A B' H1 H2 H3. unfold w_sub. pose proof (sub_loop_spec A B' 0 H1 H2 H3 ltac:(lia)) as H. destruct (sub_loop w 0 A B'). cbn [fst snd].
  destruct H as (X1 & X2 & X3 & X4). repeat (split; auto); lia.
Qed.
Lemma w_sub_borrow : forall A B', W A -> W B' -> length A = length B' -> snd (w_sub w A B') = b2z (V A <? V B').
Proof.
  intros A B' H1 H2 H3. destruct (w_sub_spec A B' H1 H2 H3) as (X1 & X2 & X3 & X4). pose proof (V_bound _ X1). rewrite X2 in H. pose proof (P_pos (length A)).
  unfold b2z. destruct (Z.ltb_spec (V A) (V B')); nia.
Qed.
Lemma w_sub_exact : forall A B', W A -> W B' -> length A = length B' -> V B' <= V A -> V (fst (w_sub w A B')) = V A - V B' /\ snd (w_sub w A B') = 0.
Proof.
  intros A B' H1 H2 H3 H. pose proof (w_sub_borrow A B' H1 H2 H3) as E. destruct (Z.ltb_spec (V A) (V B')); [lia|]. cbn in E.
  destruct (w_sub_spec A B' H1 H2 H3) as (X1 & X2 & X3 & X4). rewrite E in X4. split; auto. lia.
Qed.

(** ** Increment and decrement *)
Lemma inc_loop_spec : forall A, W A -> let '(C, c) := inc_loop w A in W C /\ length C = length A /\ 0 <= c <= 1 /\ V C + P (length A) * c = V A + 1.
Proof.
  induction A; intros HA; cbn [inc_loop]. { split; [apply W_nil|]. split; auto. split; [lia|]. cbn [length]. rewrite V_nil, P_0. lia. }
  apply W_cons in HA. destruct HA as [Ha HA]. destruct (Z.eqb_spec (wd w (a + 1)) 0).
  - specialize (IHA HA). destruct (inc_loop w A) as [C c]. destruct IHA as (X1 & X2 & X3 & X4).
    destruct (wd_cases (a + 1) ltac:(pose proof B_big; lia)) as [[H1 H2]|[H1 H2]]; [lia|]. split; [apply W_cons; split; auto; apply wd_range|]. split; [cbn; lia|]. split; auto. cbn [length]. rewrite !V_cons, P_S. nia.
  - destruct (wd_cases (a + 1) ltac:(pose proof B_big; lia)) as [[H1 H2]|[H1 H2]]; [|lia]. split; [apply W_cons; split; auto; apply wd_range|]. split; auto. split; [lia|]. rewrite !V_cons. lia.
Qed.
Lemma w_inc_spec : forall A b, W A -> A <> [] -> 0 <= b < B ->
  W (fst (w_inc w A b)) /\ length (fst (w_inc w A b)) = length A /\ 0 <= snd (w_inc w A b) <= 1 /\
  V (fst (w_inc w A b)) + P (length A) * snd (w_inc w A b) = V A + b.
Proof.
  intros [|t r] b HA N Hb; [congruence|]. apply W_cons in HA. destruct HA as [Ht HA]. unfold w_inc. rewrite Z.geb_leb.
  destruct (wd_cases (t + b) ltac:(lia)) as [[H1 H2]|[H1 H2]].
  - rewrite H2. rewrite (proj2 (Z.leb_le _ _)) by lia. cbn [fst snd length]. split; [apply W_cons; split; auto; lia|]. split; auto. split; [lia|]. rewrite !V_cons. lia.
  - rewrite H2. destruct (Z.leb_spec t (t + b - B)); [lia|]. pose proof (inc_loop_spec r HA). destruct (inc_loop w r) as [C c]. destruct H0 as (X1 & X2 & X3 & X4).
    cbn [fst snd length]. split; [apply W_cons; split; auto; lia|]. split; auto. split; auto. rewrite !V_cons, P_S. nia.
Qed.
Lemma dec_loop_spec : forall A, W A -> let '(C, c) := dec_loop w A in W C /\ length C = length A /\ 0 <= c <= 1 /\ V C - P (length A) * c = V A - 1.
Proof.
  induction A; intros HA; cbn [dec_loop]. { split; [apply W_nil|]. split; auto. split; [lia|]. cbn [length]. rewrite V_nil, P_0. lia. }
  apply W_cons in HA. destruct HA as [Ha HA]. destruct (Z.eqb_spec a 0).
  - specialize (IHA HA). destruct (dec_loop w A) as [C c]. destruct IHA as (X1 & X2 & X3 & X4).
    destruct (wd_neg_cases (a - 1) ltac:(pose proof B_big; lia)) as [[H1 H2]|[H1 H2]]; [lia|]. split; [apply W_cons; split; auto; apply wd_range|]. split; [cbn; lia|]. split; auto. cbn [length]. rewrite !V_cons, P_S. nia.
  - destruct (wd_neg_cases (a - 1) ltac:(pose proof B_big; lia)) as [[H1 H2]|[H1 H2]]; [|lia]. split; [apply W_cons; split; auto; apply wd_range|]. split; auto. split; [lia|]. rewrite !V_cons. lia.
Qed.
Lemma w_dec_spec : forall A b, W A -> A <> [] -> 0 <= b < B ->
  W (fst (w_dec w A b)) /\ length (fst (w_dec w A b)) = length A /\ 0 <= snd (w_dec w A b) <= 1 /\
  V (fst (w_dec w A b)) - P (length A) * snd (w_dec w A b) = V A - b.
Proof.
  intros [|t r] b HA N Hb; [congruence|]. apply W_cons in HA. destruct HA as [Ht HA]. unfold w_dec.
  destruct (wd_neg_cases (t - b) ltac:(lia)) as [[H1 H2]|[H1 H2]].
  - rewrite H2. rewrite (proj2 (Z.leb_le _ _)) by lia. cbn [fst snd length]. split; [apply W_cons; split; auto; lia|]. split; auto. split; [lia|]. rewrite !V_cons. lia.
  - rewrite H2. destruct (Z.leb_spec (t - b + B) t); [lia|]. pose proof (dec_loop_spec r HA). destruct (dec_loop w r) as [C c]. destruct H0 as (X1 & X2 & X3 & X4).
    cbn [fst snd length]. split; [apply W_cons; split; auto; lia|]. split; auto. split; auto. rewrite !V_cons, P_S. nia.
Qed.
Lemma W_not : forall l, W l -> W (map (fun x => B - 1 - x) l) /\ V (map (fun x => B - 1 - x) l) = P (length l) - 1 - V l.
Proof.
  induction l; intros H. { split; [apply W_nil|]. cbn [map length]. rewrite V_nil, P_0. lia. }
  apply W_cons in H. destruct H as [Ha H]. destruct (IHl H) as [I1 I2]. cbn [map length]. split; [apply W_cons; split; auto; lia|]. rewrite !V_cons, I2, P_S. ring.
Qed.
Lemma w_twos_spec : forall A, W A -> A <> [] -> W (w_twos w A) /\ length (w_twos w A) = length A /\ V (w_twos w A) = (- V A) mod P (length A).
Proof.
  intros A HA N. unfold w_twos. destruct (w_dec_spec A 1 HA N ltac:(pose proof B_big; lia)) as (X1 & X2 & X3 & X4).
  destruct (W_not _ X1) as [Y1 Y2]. split; auto. split; [rewrite map_length; auto|]. rewrite Y2, X2. pose proof (V_bound _ Y1) as Bd. rewrite map_length, X2, Y2, X2 in Bd.
  apply Z.mod_unique with (-1 + snd (w_dec w A 1)); [lia|]. nia.
Qed.

(** ** Comparison *)
Lemma V_firstn_S : forall l n, (n < length l)%nat -> V (firstn (S n) l) = V (firstn n l) + P n * at_ l n.
Proof.
  intros. rewrite (V_split1 n (firstn (S n) l)) by (rewrite firstn_length; lia). rewrite firstn_firstn, Nat.min_l, at_firstn by lia. reflexivity.
Qed.
Lemma w_cmp_spec : forall n A B', W A -> W B' -> (n <= length A)%nat -> (n <= length B')%nat ->
  w_cmp A B' n = match V (firstn n A) ?= V (firstn n B') with Lt => -1 | Eq => 0 | Gt => 1 end.
Proof.
  induction n; intros A B' HA HB LA LB. { reflexivity. }
  cbn [w_cmp]. rewrite !V_firstn_S by lia. pose proof (V_bound _ (W_firstn n A HA)) as Ba. pose proof (V_bound _ (W_firstn n B' HB)) as Bb.
  rewrite firstn_length, Nat.min_l in Ba, Bb by lia. pose proof (W_at A n HA). pose proof (W_at B' n HB). pose proof (P_pos n). rewrite Z.gtb_ltb.
  destruct (Z.ltb_spec (at_ B' n) (at_ A n)).
  - replace (V (firstn n A) + P n * at_ A n ?= _) with Gt; auto. symmetry. apply Z.compare_gt_iff. nia.
  - destruct (Z.ltb_spec (at_ A n) (at_ B' n)).
    + replace (V (firstn n A) + P n * at_ A n ?= _) with Lt; auto. symmetry. apply Z.compare_lt_iff. nia.
    + rewrite IHn by (auto; lia). replace (at_ A n) with (at_ B' n) by lia. rewrite (Z.add_comm (V (firstn n A))), (Z.add_comm (V (firstn n B'))), Zcompare_plus_compat. reflexivity.
Qed.
Lemma w_cmp_full : forall A B', W A -> W B' -> length A = length B' ->
  w_cmp A B' (length A) = match V A ?= V B' with Lt => -1 | Eq => 0 | Gt => 1 end.
Proof. intros. rewrite w_cmp_spec by (auto; lia). rewrite !firstn_all2 by lia. reflexivity. Qed.
Lemma w_cmp_full' : forall n A B', W A -> W B' -> length A = n -> length B' = n ->
  w_cmp A B' n = match V A ?= V B' with Lt => -1 | Eq => 0 | Gt => 1 end.
Proof. intros. subst n. apply w_cmp_full; auto. Qed.
(** ** Shifts *)
Lemma pow_split : forall s, 0 <= s <= w -> B = 2 ^ s * 2 ^ (w - s).
Proof. intros. unfold base. rewrite <- Z.pow_add_r by lia. f_equal. lia. Qed.
Lemma p2 : forall s, 0 <= s -> 0 < 2 ^ s.
Proof. intros. apply Z.pow_pos_nonneg; lia. Qed.
Lemma shl_word : forall u s, 0 <= s <= w -> wd w (Z.shiftl u s) = Z.shiftl (u mod 2 ^ (w - s)) s.
Proof.
  intros. rewrite !Z.shiftl_mul_pow2 by lia. unfold wd. rewrite (pow_split s) by auto. rewrite (Z.mul_comm u), (Z.mul_comm (u mod _)).
  apply Z.mul_mod_distr_l; pose proof (p2 s); pose proof (p2 (w - s)); lia.
Qed.
Lemma shl_loop_spec : forall r s carry, 0 < s < w -> W r -> 0 <= carry < 2 ^ s ->
  let '(x, c) := shl_loop w carry s r in W x /\ length x = length r /\ 0 <= c < 2 ^ s /\ V x + P (length r) * c = V r * 2 ^ s + carry.
Proof.
  induction r; intros s carry Hs Hr Hc; cbn [shl_loop]. { split; [apply W_nil|]. split; auto. split; auto. cbn [length]. rewrite V_nil, P_0. lia. }
  apply W_cons in Hr. destruct Hr as [Ha Hr]. pose proof (p2 s ltac:(lia)). pose proof (p2 (w - s) ltac:(lia)).
  assert (Q : 0 <= Z.shiftr a (w - s) < 2 ^ s).
  { rewrite Z.shiftr_div_pow2 by lia. split; [apply Z.div_pos; lia|]. apply Z.div_lt_upper_bound; [lia|]. rewrite Z.mul_comm, <- pow_split by lia. lia. }
  specialize (IHr s _ Hs Hr Q). destruct (shl_loop w (Z.shiftr a (w - s)) s r) as [x c]. destruct IHr as (X1 & X2 & X3 & X4).
  rewrite shl_word, lor_add by lia. pose proof (Z.mod_pos_bound a (2 ^ (w - s)) ltac:(lia)) as M.
  pose proof (Z.div_mod a (2 ^ (w - s)) ltac:(lia)) as D. rewrite <- Z.shiftr_div_pow2 in D by lia. rewrite (pow_split s) in * by lia.
  split; [apply W_cons; rewrite (pow_split s) by lia; split; auto; nia|]. split; [cbn; lia|]. split; auto. cbn [length]. rewrite !V_cons, P_S, (pow_split s) by lia.
  transitivity ((a mod 2 ^ (w - s)) * 2 ^ s + carry + 2 ^ s * 2 ^ (w - s) * (V x + P (length r) * c)); [ring|]. rewrite X4. clear - D. set (m := a mod _) in *. set (q := Z.shiftr _ _) in *. clearbody m q. rewrite D. ring.
Qed.
Lemma shl_bits_spec : forall r s, 0 <= s < w -> W r ->
  W (fst (shl_bits w r s)) /\ length (fst (shl_bits w r s)) = length r /\ 0 <= snd (shl_bits w r s) < 2 ^ s /\
  V (fst (shl_bits w r s)) + P (length r) * snd (shl_bits w r s) = V r * 2 ^ s.
Proof.
  intros r s Hs Hr. unfold shl_bits. destruct (Z.eqb_spec s 0). { subst. cbn [fst snd]. split; auto. split; auto. change (2 ^ 0) with 1. split; lia. }
  pose proof (shl_loop_spec r s 0 ltac:(lia) Hr ltac:(split; [lia|apply p2; lia])) as H. destruct (shl_loop w 0 s r) as [x c]. cbn [fst snd].
  destruct H as (X1 & X2 & X3 & X4). split; auto. split; auto. split; auto. lia.
Qed.
Lemma shr_loop_spec : forall r s, 0 < s < w -> W r ->
  let '(x, c) := shr_loop w s r in W x /\ length x = length r /\ c = wd w (2 ^ (w - s) * V r) /\ V x = V r / 2 ^ s.
Proof.
  induction r; intros s Hs Hr; cbn [shr_loop]. { split; [apply W_nil|]. split; auto. rewrite V_nil. split; auto. rewrite Z.mul_0_r. reflexivity. }
  apply W_cons in Hr. destruct Hr as [Ha Hr]. pose proof (p2 s ltac:(lia)). pose proof (p2 (w - s) ltac:(lia)).
  specialize (IHr s Hs Hr). destruct (shr_loop w s r) as [x c]. destruct IHr as (X1 & X2 & X3 & X4).
  assert (C : c = Z.shiftl (V r mod 2 ^ s) (w - s)).
  { rewrite X3, Z.shiftl_mul_pow2 by lia. unfold wd. rewrite (pow_split s), (Z.mul_comm (2 ^ s)), Z.mul_mod_distr_l by lia. ring. }
  assert (U : 0 <= Z.shiftr a s < 2 ^ (w - s)).
  { rewrite Z.shiftr_div_pow2 by lia. split; [apply Z.div_pos; lia|]. apply Z.div_lt_upper_bound; [lia|]. rewrite <- pow_split by lia. lia. }
  rewrite C, Z.lor_comm, lor_add by lia. pose proof (Z.mod_pos_bound (V r) (2 ^ s) ltac:(lia)) as M.
  pose proof (Z.div_mod (V r) (2 ^ s) ltac:(lia)) as D.
  split; [apply W_cons; rewrite (pow_split s) by lia; split; auto; nia|]. split; [cbn; lia|]. split.
  - rewrite Z.shiftl_mul_pow2 by lia. rewrite V_cons. unfold wd. rewrite Z.mul_add_distr_l. replace (2 ^ (w - s) * (B * V r)) with (2 ^ (w - s) * V r * B) by ring.
    rewrite Z.mod_add by (pose proof B_pos; lia). f_equal. ring.
  - rewrite !V_cons, X4. rewrite Z.shiftr_div_pow2 by lia. rewrite D at 3. rewrite (pow_split s) by lia.
    replace (a + 2 ^ s * 2 ^ (w - s) * (2 ^ s * (V r / 2 ^ s) + V r mod 2 ^ s)) with (a + (2 ^ (w - s) * (2 ^ s * (V r / 2 ^ s) + V r mod 2 ^ s)) * 2 ^ s) by ring.
    rewrite Z.div_add by lia. ring.
Qed.
Lemma shr_bits_spec : forall r s, 0 <= s < w -> W r -> W (shr_bits w r s) /\ length (shr_bits w r s) = length r /\ V (shr_bits w r s) = V r / 2 ^ s.
Proof.
  intros r s Hs Hr. unfold shr_bits. destruct (Z.eqb_spec s 0). { subst. rewrite Z.pow_0_r, Z.div_1_r. auto. }
  pose proof (shr_loop_spec r s ltac:(lia) Hr) as H. destruct (shr_loop w s r) as [x c]. cbn [fst]. tauto.
Qed.
Lemma shl_words_spec : forall r n k, W r -> (k <= n)%nat -> (n <= length r)%nat ->
  W (shl_words r n k) /\ length (shl_words r n k) = length r /\ V (shl_words r n k) = P k * V (firstn (n - k) r) + P n * V (skipn n r).
Proof.
  intros r n k Hr Hk Hn. unfold shl_words. cbv zeta. rewrite Nat.min_l by auto. split; [|split].
  - apply W_app. split; [apply W_repeat0|]. apply W_app. split; [apply W_firstn|apply W_skipn]; auto.
  - rewrite !app_length, repeat_length, firstn_length, skipn_length. lia.
  - rewrite !V_app, V_repeat0, repeat_length, firstn_length, Nat.min_l by lia. replace (P n) with (P k * P (n - k)) by (rewrite <- P_add; f_equal; lia). ring.
Qed.
Lemma shr_words_spec : forall r n k, W r -> (k <= n)%nat -> (n <= length r)%nat ->
  W (shr_words r n k) /\ length (shr_words r n k) = length r /\ V (shr_words r n k) = V (sub_ k (n - k) r) + P n * V (skipn n r).
Proof.
  intros r n k Hr Hk Hn. unfold shr_words. cbv zeta. rewrite Nat.min_l by auto. unfold sub_. split; [|split].
  - apply W_app. split; [apply W_firstn, W_skipn; auto|]. apply W_app. split; [apply W_repeat0|apply W_skipn; auto].
  - rewrite !app_length, repeat_length, firstn_length, !skipn_length. lia.
  - rewrite !V_app, V_repeat0, repeat_length, firstn_length, skipn_length, Nat.min_l by lia. replace (P n) with (P (n - k) * P k) by (rewrite <- P_add; f_equal; lia). ring.
Qed.

(** ** Counting words *)
Lemma count_words_spec : forall n X, (n <= length X)%nat ->
  (count_words X n <= n)%nat /\ V (firstn n X) = V (firstn (count_words X n) X) /\ (count_words X n <> 0%nat -> at_ X (count_words X n - 1) <> 0).
Proof.
  induction n; intros X H; cbn [count_words]. { split; [lia|]. split; [auto|lia]. }
  destruct (Z.eqb_spec (at_ X n) 0).
  - destruct (IHn X ltac:(lia)) as (A & E & C). split; [lia|]. split; auto. rewrite V_firstn_S by lia. rewrite e, E. ring.
  - split; auto. split; auto. intros _. cbn [Nat.sub]. rewrite Nat.sub_0_r. auto.
Qed.
Lemma even_wc_spec : forall f n X, (n <= length X)%nat -> Nat.even n = true -> (n <= 2 * f)%nat ->
  let m := even_word_count f X n in
  (m <= n)%nat /\ Nat.even m = true /\ V (firstn n X) = V (firstn m X) /\ (m <> 0%nat -> at_ X (m - 2) <> 0 \/ at_ X (m - 1) <> 0).
Proof.
  induction f; intros n X H He Hf; cbn [even_word_count]; cbv zeta. { split; auto. split; auto. split; auto. lia. }
  destruct ((0 <? n)%nat && (at_ X (n - 2) =? 0) && (at_ X (n - 1) =? 0)) eqn:E.
  - apply andb_true_iff in E. destruct E as [E E3]. apply andb_true_iff in E. destruct E as [E1 E2]. apply Nat.ltb_lt in E1. apply Z.eqb_eq in E2, E3.
    destruct n as [|[|n]]; [lia|discriminate|]. replace (S (S n) - 2)%nat with n in * by lia. replace (S (S n) - 1)%nat with (S n) in * by lia.
    destruct (IHf n X ltac:(lia) He ltac:(lia)) as (A & A' & E & C). split; [lia|]. split; auto. split; auto. rewrite !V_firstn_S by lia. rewrite E2, E3, E. ring.
  - split; auto. split; auto. split; auto. intros Hn. destruct (Nat.ltb_spec 0 n); [|lia]. cbn [andb] in E. apply andb_false_iff in E. rewrite !Z.eqb_neq in E. tauto.
Qed.

(** ** Word products *)
Lemma mulwords_spec : forall a b, 0 <= a < B -> 0 <= b < B ->
  0 <= fst (mulwords w a b) < B /\ 0 <= snd (mulwords w a b) <= B - 2 /\ fst (mulwords w a b) + B * snd (mulwords w a b) = a * b.
Proof.
  intros a b Ha Hb. unfold mulwords, wd. cbn [fst snd]. pose proof B_big. pose proof (Z.mod_pos_bound (a * b) B ltac:(lia)). pose proof (Z.div_mod (a * b) B ltac:(lia)).
  assert (a * b <= (B - 1) * (B - 1)) by nia. assert (0 <= a * b) by nia. repeat split; try lia; nia.
Qed.
Lemma acc2by1_spec : forall d0 d1 x, 0 <= d0 < B -> 0 <= x < B -> 0 <= d1 -> d0 + x + B * d1 < B * B ->
  0 <= fst (acc2by1 w d0 d1 x) < B /\ 0 <= snd (acc2by1 w d0 d1 x) < B /\ fst (acc2by1 w d0 d1 x) + B * snd (acc2by1 w d0 d1 x) = d0 + x + B * d1.
Proof.
  intros d0 d1 x H0 Hx H1 H. unfold acc2by1. cbn [fst snd]. pose proof B_big.
  destruct (wd_cases (d0 + x) ltac:(lia)) as [[A E]|[A E]]; rewrite E.
  - destruct (Z.ltb_spec (d0 + x) x); [lia|]. cbn [b2z]. rewrite wd_small by nia. repeat split; nia.
  - destruct (Z.ltb_spec (d0 + x - B) x); [|lia]. cbn [b2z]. rewrite wd_small by nia. repeat split; nia.
Qed.
Lemma lin_loop_spec : forall A b c, W A -> 0 <= b < B -> 0 <= c < B ->
  let '(C, k) := lin_loop w c A b in W C /\ length C = length A /\ 0 <= k < B /\ V C + P (length A) * k = V A * b + c.
Proof.
  induction A; intros b c HA Hb Hc; cbn [lin_loop]. { split; [apply W_nil|]. split; auto. split; auto. cbn [length]. rewrite V_nil, P_0. lia. }
  apply W_cons in HA. destruct HA as [Ha HA]. destruct (mulwords_spec a b Ha Hb) as (M1 & M2 & M3). destruct (mulwords w a b) as [p0 p1]. cbn [fst snd] in *.
  destruct (acc2by1_spec p0 p1 c M1 Hc ltac:(lia) ltac:(nia)) as (N1 & N2 & N3). destruct (acc2by1 w p0 p1 c) as [q0 q1]. cbn [fst snd] in *.
  specialize (IHA b q1 HA Hb N2). destruct (lin_loop w q1 A b) as [C k]. destruct IHA as (X1 & X2 & X3 & X4).
  split; [apply W_cons; auto|]. split; [cbn; lia|]. split; auto. cbn [length]. rewrite !V_cons, P_S. 
  transitivity (q0 + B * (V C + P (length A) * k)); [ring|]. rewrite X4. transitivity ((q0 + B * q1) + B * V A * b); [ring|]. rewrite N3. transitivity ((p0 + B * p1) + c + B * V A * b); [ring|]. rewrite M3. ring.
Qed.
Lemma linear_spec : forall A b, W A -> 0 <= b < B ->
  W (fst (linear_multiply w A b)) /\ length (fst (linear_multiply w A b)) = length A /\ 0 <= snd (linear_multiply w A b) < B /\
  V (fst (linear_multiply w A b)) + P (length A) * snd (linear_multiply w A b) = V A * b.
Proof.
  intros A b HA Hb. unfold linear_multiply. pose proof (lin_loop_spec A b 0 HA Hb ltac:(pose proof B_pos; lia)) as H. destruct (lin_loop w 0 A b). cbn [fst snd].
  destruct H as (X1 & X2 & X3 & X4). split; auto. split; auto. split; auto. lia.
Qed.
End WP.
