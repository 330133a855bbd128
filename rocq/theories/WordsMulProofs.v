(** Proofs that the unrolled column products and the recursive products compute the product. *)
From Coq Require Import ZArith List Bool Arith Lia Permutation.
From Verif Require Import Base AsnModel AsnProofs WordsSpec WordsModel WordsProofs.
Import ListNotations.
Local Open Scope Z_scope.

(** ** Schedules: what each one multiplies *)
(** The pairs accumulated by a schedule of Mul_Acc and Mul_SaveAcc, column by column; [o] is the weight of R[0], [m] bounds the
    column sum in units of base^2, [N] is the number of result words. *)
Fixpoint chk (o N : nat) (l : list cstep) (col m : nat) : option (nat * nat * list (nat * nat)) :=
  match l with
  | [] => Some (col, m, [])
  | MAcc i j :: r => if (i + j =? col + o)%nat && (m <? 100)%nat
                     then match chk o N r col (S m) with Some (c, m, p) => Some (c, m, (i, j) :: p) | None => None end else None
  | MSave k i j :: r => if (k =? col)%nat && (i + j =? S col + o)%nat && (k <? N)%nat
                        then match chk o N r (S col) 2 with Some (c, m, p) => Some (c, m, (i, j) :: p) | None => None end else None
  | _ :: _ => None
  end.
Fixpoint chk_bacc (l : list cstep) (col : nat) : option (list (nat * nat)) :=
  match l with
  | [] => Some []
  | BAcc i j :: r => if (i + j =? col)%nat then match chk_bacc r col with Some p => Some ((i, j) :: p) | None => None end else None
  | _ => None
  end.
Fixpoint chk_tacc (l : list cstep) (col : nat) : option (list (nat * nat)) :=
  match l with
  | [] => Some []
  | TAcc i j :: r => if (i + j =? col)%nat then match chk_tacc r col with Some p => Some ((i, j) :: p) | None => None end else None
  | _ => None
  end.
(** A schedule of squaring; [pend] says that the column sum has not been doubled yet. *)
Fixpoint chks (N : nat) (l : list sstep) (col m : nat) (pend : bool) : option (nat * nat * list (nat * nat)) :=
  match l with
  | [] => if pend then None else Some (col, m, [])
  | SSave k i j :: r => if negb pend && (k =? col)%nat && (i + j =? S col)%nat && (k <? N)%nat
                        then match chks N r (S col) 1 true with Some (c, m, p) => Some (c, m, (i, j) :: (j, i) :: p) | None => None end else None
  | SAcc i j :: r => if pend && (i + j =? col)%nat && (m <? 100)%nat
                     then match chks N r col (S m) true with Some (c, m, p) => Some (c, m, (i, j) :: (j, i) :: p) | None => None end else None
  | SDiag i :: r => if pend && (i + i =? col)%nat && (m <? 40)%nat
                    then match chks N r col (S (2 * m)) false with Some (c, m, p) => Some (c, m, (i, i) :: p) | None => None end else None
  | SNonDiag :: r => if pend && (m <? 40)%nat then chks N r col (2 * m) false else None
  end.
Definition pair_eqb (a b : nat * nat) : bool := (fst a =? fst b)%nat && (snd a =? snd b)%nat.
Fixpoint rem1 (x : nat * nat) (l : list (nat * nat)) : option (list (nat * nat)) :=
  match l with [] => None | y :: r => if pair_eqb x y then Some r else match rem1 x r with Some r' => Some (y :: r') | None => None end end.
Fixpoint permb (a b : list (nat * nat)) : bool :=
  match a with [] => match b with [] => true | _ => false end | x :: r => match rem1 x b with Some b' => permb r b' | None => false end end.
Lemma rem1_perm : forall x l l', rem1 x l = Some l' -> Permutation l (x :: l').
Proof.
  induction l; cbn; intros l' H; [discriminate|]. destruct (pair_eqb x a) eqn:E.
  - inversion H; subst. unfold pair_eqb in E. apply andb_true_iff in E. rewrite !Nat.eqb_eq in E. destruct x, a. cbn in E. destruct E. subst. apply Permutation_refl.
  - destruct (rem1 x l) eqn:R; [|discriminate]. inversion H; subst. specialize (IHl _ eq_refl). rewrite IHl. apply perm_swap.
Qed.
Lemma permb_perm : forall a b, permb a b = true -> Permutation a b.
Proof.
  induction a; cbn; intros b H. { destruct b; [constructor|discriminate]. }
  destruct (rem1 a b) eqn:E; [|discriminate]. apply rem1_perm in E. apply Permutation_sym. rewrite E. constructor. apply Permutation_sym. auto.
Qed.

Section Mul.
Variable w : Z.
Context {Hbig : bigw w}.
Notation B := (base w).
Notation V := (wval w).
Notation W := (words w).
Notation P := (P w).

Section Sum.
Variables X Y : list Z.
Definition term (o : nat) (p : nat * nat) : Z := P (fst p + snd p - o) * (at_ X (fst p) * at_ Y (snd p)).
Definition sumt (o : nat) (l : list (nat * nat)) : Z := fold_right (fun p s => term o p + s) 0 l.
Lemma sumt_app : forall o a b, sumt o (a ++ b) = sumt o a + sumt o b.
Proof. induction a; intros; [cbn [app]; change (sumt o []) with 0; lia|]. change (sumt o ((a :: a0) ++ b)) with (term o a + sumt o (a0 ++ b)). change (sumt o (a :: a0)) with (term o a + sumt o a0). rewrite IHa. lia. Qed.
Lemma sumt_cons : forall o p l, sumt o (p :: l) = term o p + sumt o l.
Proof. reflexivity. Qed.
Lemma sumt_perm : forall o a b, Permutation a b -> sumt o a = sumt o b.
Proof. induction 1; auto; rewrite ?sumt_cons in *; try lia. Qed.
End Sum.
Lemma V_sum : forall l n, length l = n -> V l = fold_right (fun i s => P i * at_ l i + s) 0 (seq 0 n).
Proof.
  intros l n E. subst n. induction l as [|x l IH] using rev_ind; auto. rewrite app_length. cbn [length]. rewrite Nat.add_1_r, seq_S, fold_right_app. cbn [fold_right Nat.add].
  rewrite V_app, IH. rewrite at_app2, Nat.sub_diag, at_0 by lia. rewrite (V_cons w x []), V_nil, Z.add_0_r.
  assert (G : forall s r, (forall i, In i s -> (i < length l)%nat) ->
     fold_right (fun i s => P i * at_ (l ++ [x]) i + s) r s = fold_right (fun i s => P i * at_ l i + s) 0 s + r).
  { induction s; intros r Hs; cbn [fold_right]; [lia|]. rewrite IHs by (intros; apply Hs; right; auto). rewrite at_app1 by (apply Hs; left; auto). lia. }
  rewrite G; [lia|]. intros i Hi. apply in_seq in Hi. lia.
Qed.
Lemma sum_prod : forall X Y n m, length X = n -> length Y = m -> sumt X Y 0 (list_prod (seq 0 n) (seq 0 m)) = V X * V Y.
Proof.
  intros X Y n m HX HY. rewrite (V_sum X n HX). rewrite (V_sum Y m HY). generalize (seq 0 n) as s. generalize (seq 0 m) as t. intros t. induction s; [reflexivity|].
  cbn [list_prod fold_right]. rewrite sumt_app, IHs. rewrite Z.mul_add_distr_r. f_equal. clear. induction t; cbn [map fold_right]; [cbn; lia|].
  rewrite sumt_cons, IHt. unfold term. cbn [fst snd]. rewrite Nat.sub_0_r, P_add. ring.
Qed.

Definition acc3 (c d0 d1 : Z) : Z := c + B * d0 + B * B * d1.
Lemma mulacc_spec : forall c d0 d1 a b m, 0 <= c < B -> 0 <= d0 < B -> 0 <= d1 < B -> 0 <= a < B -> 0 <= b < B -> 0 <= m <= 200 -> acc3 c d0 d1 <= m * (B * B) ->
  let '(c', d0', d1') := mulacc w c d0 d1 a b in
  0 <= c' < B /\ 0 <= d0' < B /\ 0 <= d1' < B /\ acc3 c' d0' d1' = acc3 c d0 d1 + a * b /\ acc3 c' d0' d1' <= (m + 1) * (B * B).
Proof.
  intros c d0 d1 a b m Hc H0 H1 Ha Hb Hm HX. unfold mulacc, acc3 in *. pose proof (B_big w) as HB. change (2 ^ 32) with 4294967296 in HB. 
  destruct (mulwords_spec w a b Ha Hb) as (M1 & M2 & M3). destruct (mulwords w a b) as [p0 p1]. cbn [fst snd] in *.
  destruct (acc2by1_spec w p0 p1 c M1 Hc ltac:(lia) ltac:(nia)) as (N1 & N2 & N3). destruct (acc2by1 w p0 p1 c) as [q0 q1]. cbn [fst snd] in *.
  assert (D1 : d1 <= m) by nia.
  destruct (acc2by1_spec w d0 d1 q1 H0 N2 ltac:(lia) ltac:(nia)) as (K1 & K2 & K3). destruct (acc2by1 w d0 d1 q1) as [k0 k1]. cbn [fst snd] in *.
  split; auto. split; auto. split; auto. assert (E : q0 + B * k0 + B * B * k1 = c + B * d0 + B * B * d1 + a * b).
  { transitivity (q0 + B * (k0 + B * k1)); [ring|]. rewrite K3. transitivity ((q0 + B * q1) + B * d0 + B * B * d1); [ring|]. rewrite N3. lia. }
  split; auto. rewrite E. assert (a * b <= B * B) by (clear - Ha Hb; apply Z.mul_le_mono_nonneg; lia). clear - H HX. generalize dependent (B * B). intros. lia.
Qed.
Lemma acc2by2_spec : forall a0 a1 b0 b1, 0 <= a0 < B -> 0 <= a1 < B -> 0 <= b0 < B -> 0 <= b1 < B -> a0 + B * a1 + b0 + B * b1 < B * B ->
  0 <= fst (acc2by2 w a0 a1 b0 b1) < B /\ 0 <= snd (acc2by2 w a0 a1 b0 b1) < B /\
  fst (acc2by2 w a0 a1 b0 b1) + B * snd (acc2by2 w a0 a1 b0 b1) = a0 + B * a1 + b0 + B * b1.
Proof.
  intros a0 a1 b0 b1 H0 H1 H2 H3 H. unfold acc2by2. cbn [fst snd]. pose proof (B_big w).
  destruct (wd_cases w (a0 + b0) ltac:(lia)) as [[A E]|[A E]]; rewrite E.
  - destruct (Z.ltb_spec (a0 + b0) b0); [lia|]. cbn [b2z]. rewrite Z.add_0_r. rewrite (wd_small w a1) by lia. rewrite wd_small by nia. repeat split; nia.
  - destruct (Z.ltb_spec (a0 + b0 - B) b0); [|lia]. cbn [b2z]. rewrite (wd_small w (a1 + 1)) by nia. rewrite wd_small by nia. repeat split; nia.
Qed.

Section Col.
Variables X Y : list Z.
Hypothesis HX : W X.
Hypothesis HY : W Y.
Variable L : Z.
Variable N : nat.

Definition inv (s : cstate) (col m : nat) (T : Z) : Prop :=
  let '(R, c, d0, d1) := s in
  W R /\ length R = N /\ (forall k, (col <= k)%nat -> at_ R k = 0) /\ 0 <= c < B /\ 0 <= d0 < B /\ 0 <= d1 < B /\
  acc3 c d0 d1 <= Z.of_nat m * (B * B) /\ V R + P col * acc3 c d0 d1 = T.

Lemma at_upd_other : forall (l : list Z) i x k, k <> i -> at_ (upd i x l) k = at_ l k.
Proof. induction l; destruct i, k; intros; cbn; auto; try lia. apply IHl. lia. Qed.
Lemma at_upd_same : forall (l : list Z) i x, (i < length l)%nat -> at_ (upd i x l) i = x.
Proof. induction l; destruct i; intros; cbn in *; try lia; auto. apply IHl. lia. Qed.

Lemma chk_run : forall o l s col m T col' m' ps, chk o N l col m = Some (col', m', ps) -> inv s col m T ->
  inv (fold_left (cexec w X Y L) l s) col' m' (T + sumt X Y o ps).
Proof.
  induction l as [|i l IH]; intros s col m T col' m' ps H I. { inversion H; subst. cbn [fold_left]. replace (T + sumt X Y o []) with T by (cbn; lia). auto. }
  destruct s as [[[R c] d0] d1]. destruct I as (I1 & I2 & I3 & I4 & I5 & I6 & I7 & I8).
  destruct i; cbn [chk] in H; try discriminate; cbn [fold_left].
  - destruct (((k =? col)%nat && (i + j =? S col + o)%nat && (k <? N)%nat)%bool) eqn:E; [|discriminate].
    apply andb_true_iff in E. destruct E as [E E3]. apply andb_true_iff in E. destruct E as [E1 E2]. apply Nat.eqb_eq in E1, E2. apply Nat.ltb_lt in E3. subst k.
    destruct (chk o N l (S col) 2) as [[[c1 m1] p1]|] eqn:Q; [|discriminate]. inversion H; subst; clear H.
    rewrite sumt_cons. rewrite Z.add_assoc. eapply IH; eauto. cbn [cexec].
    pose proof (mulacc_spec d0 d1 0 (at_ X i) (at_ Y j) 1 I5 I6 ltac:(pose proof (B_pos w); lia) (W_at w X i HX) (W_at w Y j HY) ltac:(lia) ltac:(unfold acc3; nia)) as M.
    destruct (mulacc w d0 d1 0 (at_ X i) (at_ Y j)) as [[c2 e0] e1]. destruct M as (M1 & M2 & M3 & M4 & M5).
    split; [apply W_upd; auto|]. split; [rewrite upd_len; auto|]. split. { intros k Hk. rewrite at_upd_other by lia. apply I3. lia. }
    split; auto. split; auto. split; auto. split; [exact M5|]. rewrite V_upd by lia. rewrite I3 by lia. rewrite M4. unfold term. cbn [fst snd].
    replace (i + j - o)%nat with (S col) by lia. rewrite P_S. unfold acc3. ring.
  - destruct ((i + j =? col + o)%nat && (m <? 100)%nat)%bool eqn:E; [|discriminate].
    apply andb_true_iff in E. destruct E as [E1 E2]. apply Nat.eqb_eq in E1. apply Nat.ltb_lt in E2.
    destruct (chk o N l col (S m)) as [[[c1 m1] p1]|] eqn:Q; [|discriminate]. inversion H; subst; clear H.
    rewrite sumt_cons. rewrite Z.add_assoc. eapply IH; eauto. cbn [cexec].
    pose proof (mulacc_spec c d0 d1 (at_ X i) (at_ Y j) (Z.of_nat m) I4 I5 I6 (W_at w X i HX) (W_at w Y j HY) ltac:(lia) I7) as M.
    destruct (mulacc w c d0 d1 (at_ X i) (at_ Y j)) as [[c2 e0] e1]. destruct M as (M1 & M2 & M3 & M4 & M5).
    split; auto. split; auto. split; auto. split; auto. split; auto. split; auto. split; [rewrite Nat2Z.inj_succ; exact M5|].
    rewrite M4. unfold term. cbn [fst snd]. replace (i + j - o)%nat with col by lia. ring.
Qed.

(** Mul_End. *)
Lemma end_run : forall o s col m T i, inv s col m T -> (col + 3 = N)%nat -> (i + i = S col + o)%nat -> T + term X Y o (i, i) < P N ->
  let R := cR (cexec w X Y L s (MEnd col i)) in W R /\ length R = N /\ V R = T + term X Y o (i, i).
Proof.
  intros o s col m T i I Hc Hi Hlt. destruct s as [[[R c] d0] d1]. destruct I as (I1 & I2 & I3 & I4 & I5 & I6 & I7 & I8). cbn [cexec].
  destruct (mulwords_spec w (at_ X i) (at_ Y i) (W_at w X i HX) (W_at w Y i HY)) as (M1 & M2 & M3). destruct (mulwords w (at_ X i) (at_ Y i)) as [p0 p1]. cbn [fst snd] in *.
  unfold term in *. cbn [fst snd] in *. replace (i + i - o)%nat with (S col) in * by lia. rewrite <- M3 in Hlt |- *. pose proof (V_bound w R I1) as VB.
  assert (Bd : p0 + B * p1 + d0 + B * d1 < B * B).
  { rewrite <- I8 in Hlt. replace N with (S (S (S col))) in Hlt by lia. rewrite !P_S in Hlt. unfold acc3 in Hlt. pose proof (P_pos w col). pose proof (B_pos w).
    assert (Q : P col * (B * (p0 + B * p1 + d0 + B * d1)) < P col * (B * (B * B))) by nia.
    apply Z.mul_lt_mono_pos_l in Q; auto. apply Z.mul_lt_mono_pos_l in Q; auto. }
  destruct (acc2by2_spec p0 p1 d0 d1 M1 ltac:(lia) I5 I6 Bd) as (N1 & N2 & N3). destruct (acc2by2 w p0 p1 d0 d1) as [q0 q1]. cbn [fst snd cR] in *.
  cbv zeta. split; [repeat apply W_upd; auto|]. split; [rewrite !upd_len; auto|].
  rewrite !V_upd by (rewrite ?upd_len; lia). rewrite !at_upd_other by lia. rewrite !I3 by lia. rewrite !P_add, P_1, <- I8.
  replace (P 2) with (B * B) by (rewrite <- (P_1 w), <- P_add; reflexivity). rewrite P_S. unfold acc3.
  transitivity (V R + P col * c + P col * B * (q0 + B * q1)); [ring|]. rewrite N3. ring.
Qed.
End Col.

(** ** Full products *)
Definition mul_ok (n : nat) (l : list cstep) : bool :=
  match chk 0 (2 * n) (removelast l) 0 1, last l (BAcc 0 0) with
  | Some (col, _, ps), MEnd k i => (k =? col)%nat && (col + 3 =? 2 * n)%nat && (i + i =? S col)%nat && permb ((0, 0)%nat :: ps ++ [(i, i)]) (list_prod (seq 0 n) (seq 0 n))
  | _, _ => false
  end.
Lemma run_mul_spec : forall n l X Y, mul_ok n l = true -> W X -> W Y -> length X = n -> length Y = n ->
  let R := run_mul w n l X Y in W R /\ length R = (2 * n)%nat /\ V R = V X * V Y.
Proof.
  intros n l X Y H HX HY LX LY. unfold mul_ok in H. destruct (chk 0 (2 * n) (removelast l) 0 1) as [[[col m] ps]|] eqn:E; [|discriminate].
  destruct (last l (BAcc 0 0)) as [ | |k i| | | | | ] eqn:EL; try discriminate. apply andb_true_iff in H. destruct H as [H H4]. apply andb_true_iff in H. destruct H as [H H3]. apply andb_true_iff in H. destruct H as [H1 H2].
  apply Nat.eqb_eq in H1, H2, H3. subst k. apply permb_perm in H4.
  assert (D : l = removelast l ++ [MEnd col i]). { rewrite <- EL. apply app_removelast_last. intros ->. discriminate. }
  unfold run_mul. rewrite D, fold_left_app. cbn [fold_left].
  assert (I0 : inv (2 * n) (mul_begin w (2 * n) X Y) 0 1 (term X Y 0 (0, 0)%nat)).
  { unfold mul_begin. destruct (mulwords_spec w (at_ X 0) (at_ Y 0) (W_at w X 0 HX) (W_at w Y 0 HY)) as (M1 & M2 & M3). destruct (mulwords w (at_ X 0) (at_ Y 0)) as [p0 p1]. cbn [fst snd] in *.
    pose proof (B_big w). unfold inv. split; [apply (W_repeat0 w); auto|]. split; [apply repeat_length|]. split; [intros k _; unfold at_; rewrite nth_repeat; auto|].
    split; auto. split; [lia|]. split; [lia|]. unfold acc3, term. cbn [fst snd Nat.add Nat.sub]. rewrite V_repeat0, P_0. split; [|lia]. change (Z.of_nat 1) with 1. nia. }
  pose proof (chk_run X Y HX HY 0 (2 * n) 0 (removelast l) _ 0 1 _ col m ps E I0) as I1.
  assert (T : term X Y 0 (0, 0)%nat + sumt X Y 0 ps + term X Y 0 (i, i) = V X * V Y).
  { rewrite <- (sum_prod X Y n n LX LY), <- (sumt_perm X Y 0 _ _ H4), sumt_cons, sumt_app, sumt_cons. cbn [sumt fold_right]. lia. }
  pose proof (end_run X Y HX HY 0 (2 * n) 0 _ col m _ i I1 ltac:(lia) ltac:(lia)) as R. rewrite T in R. apply R.
  pose proof (V_bound w X HX) as BX. pose proof (V_bound w Y HY) as BY. rewrite LX in BX. rewrite LY in BY. replace (2 * n)%nat with (n + n)%nat by lia. rewrite P_add. nia.
Qed.
Lemma mul_2_ok : mul_ok 2 mul_2 = true. Proof. vm_compute. reflexivity. Qed.
Lemma mul_4_ok : mul_ok 4 mul_4 = true. Proof. vm_compute. reflexivity. Qed.
Lemma mul_8_ok : mul_ok 8 mul_8 = true. Proof. vm_compute. reflexivity. Qed.
Lemma mul_16_ok : mul_ok 16 mul_16 = true. Proof. vm_compute. reflexivity. Qed.
(** ** Low halves *)
Fixpoint split_at_ (f : cstep -> bool) (l : list cstep) : list cstep * list cstep :=
  match l with [] => ([], []) | x :: r => if f x then ([], l) else let '(a, b) := split_at_ f r in (x :: a, b) end.
Lemma split_at_app : forall f l a b, split_at_ f l = (a, b) -> l = a ++ b.
Proof.
  induction l; cbn; intros a' b H; [inversion H; auto|]. destruct (f a); [inversion H; auto|]. destruct (split_at_ f l) eqn:E. inversion H; subst. cbn. f_equal. auto.
Qed.
Definition is_bsave (x : cstep) : bool := match x with BSave _ _ _ => true | _ => false end.
Definition is_t0 (x : cstep) : bool := match x with TSave0 _ _ => true | _ => false end.
Definition is_t1 (x : cstep) : bool := match x with TSave1 _ _ => true | _ => false end.
Definition colp (f : nat -> bool) (n : nat) : list (nat * nat) := filter (fun p => f (fst p + snd p)%nat) (list_prod (seq 0 n) (seq 0 n)).
Definition bot_ok (n : nat) (l : list cstep) : bool :=
  match split_at_ is_bsave l with
  | (pre, BSave k i j :: post) =>
    match chk 0 n pre 0 1, chk_bacc post (n - 1) with
    | Some (col, _, ps), Some qs => (k =? col)%nat && (i + j =? S col)%nat && (S (S col) =? n)%nat && permb ((0, 0)%nat :: ps ++ (i, j) :: qs) (colp (fun c => (c <? n)%nat) n)
    | _, _ => false
    end
  | _ => false
  end.
Lemma sumt_filter : forall X Y o f l, sumt X Y o l = sumt X Y o (filter f l) + sumt X Y o (filter (fun p => negb (f p)) l).
Proof. induction l; [reflexivity|]. cbn [filter]. destruct (f a); cbn [negb]; rewrite !sumt_cons, IHl; ring. Qed.
Lemma sumt_high : forall X Y n l, (forall p, In p l -> (n <= fst p + snd p)%nat) -> sumt X Y 0 l = P n * sumt X Y n l.
Proof.
  induction l; intros H. { change (sumt X Y 0 []) with 0. change (sumt X Y n []) with 0. lia. }
  rewrite !sumt_cons, IHl by (intros; apply H; right; auto). unfold term. specialize (H a (or_introl eq_refl)). rewrite Nat.sub_0_r.
  replace (fst a + snd a)%nat with (n + (fst a + snd a - n))%nat at 1 by lia. rewrite P_add. ring.
Qed.
Lemma prod_cols : forall X Y n f, length X = n -> length Y = n -> V X * V Y = sumt X Y 0 (colp f n) + sumt X Y 0 (colp (fun c => negb (f c)) n).
Proof. intros. rewrite <- (sum_prod X Y n n) by auto. apply (sumt_filter X Y 0 (fun p => f (fst p + snd p)%nat)). Qed.
Lemma colp_in : forall f n p, In p (colp f n) -> f (fst p + snd p)%nat = true.
Proof. intros f n p H. unfold colp in H. apply filter_In in H. tauto. Qed.

Lemma bacc_run : forall X Y N l R c d0 d1 ps, W X -> W Y -> (0 < N)%nat -> chk_bacc l (N - 1) = Some ps -> 0 <= c < B ->
  exists c', fold_left (cexec w X Y 0) l (R, c, d0, d1) = (R, c', d0, d1) /\ 0 <= c' < B /\ (P (N - 1) * c') mod P N = (P (N - 1) * c + sumt X Y 0 ps) mod P N.
Proof.
  induction l as [|x l IH]; intros R c d0 d1 ps HX HY HN H Hc. { inversion H; subst. exists c. cbn [fold_left]. split; auto. split; auto. f_equal. change (sumt X Y 0 []) with 0. lia. }
  destruct x; cbn [chk_bacc] in H; try discriminate. destruct (Nat.eqb_spec (i + j) (N - 1)); [|discriminate]. destruct (chk_bacc l (N - 1)) as [q|] eqn:E; [|discriminate]. inversion H; subst; clear H.
  cbn [fold_left cexec]. destruct (IH R (wd w (c + at_ X i * at_ Y j)) d0 d1 q HX HY HN eq_refl ltac:(apply (wd_range w); auto)) as (c' & E1 & E2 & E3).
  exists c'. split; auto. split; auto. rewrite E3, sumt_cons. unfold term. cbn [fst snd]. rewrite Nat.sub_0_r, e. pose proof (B_pos w). pose proof (P_pos w N).
  assert (PN : P N = P (N - 1) * B) by (replace N with (S (N - 1)) at 1 by lia; rewrite P_S; ring).
  unfold wd. rewrite (Z.mod_eq (c + _) B) by lia. 
  replace (P (N - 1) * (c + at_ X i * at_ Y j - B * ((c + at_ X i * at_ Y j) / B)) + sumt X Y 0 q) with
    (P (N - 1) * c + (P (N - 1) * (at_ X i * at_ Y j) + sumt X Y 0 q) + - ((c + at_ X i * at_ Y j) / B) * P N) by (rewrite PN; ring).
  rewrite Z.mod_add by lia. reflexivity.
Qed.
Lemma begin_inv : forall X Y n, W X -> W Y -> inv n (mul_begin w n X Y) 0 1 (term X Y 0 (0, 0)%nat).
Proof.
  intros X Y n HX HY. unfold mul_begin. destruct (mulwords_spec w (at_ X 0) (at_ Y 0) (W_at w X 0 HX) (W_at w Y 0 HY)) as (M1 & M2 & M3). destruct (mulwords w (at_ X 0) (at_ Y 0)) as [p0 p1]. cbn [fst snd] in *.
  pose proof (B_big w). unfold inv. split; [apply (W_repeat0 w); auto|]. split; [apply repeat_length|]. split; [intros k _; unfold at_; rewrite nth_repeat; auto|].
  split; auto. split; [lia|]. split; [lia|]. unfold acc3, term. cbn [fst snd Nat.add Nat.sub]. rewrite V_repeat0, P_0. split; [|lia]. change (Z.of_nat 1) with 1. nia.
Qed.
Lemma run_bot_spec : forall n l X Y, bot_ok n l = true -> W X -> W Y -> length X = n -> length Y = n ->
  let R := run_bot w n l X Y in W R /\ length R = n /\ V R = (V X * V Y) mod P n.
Proof.
  intros n l X Y H HX HY LX LY. unfold bot_ok in H. destruct (split_at_ is_bsave l) as [pre post] eqn:S1. apply split_at_app in S1. subst l.
  destruct post as [|[ | | |k i j| | | | ] post]; try discriminate. destruct (chk 0 n pre 0 1) as [[[col m] ps]|] eqn:E; [|discriminate]. destruct (chk_bacc post (n - 1)) as [qs|] eqn:E2; [|discriminate].
  apply andb_true_iff in H. destruct H as [H H4]. apply andb_true_iff in H. destruct H as [H H3]. apply andb_true_iff in H. destruct H as [H1 H2].
  apply Nat.eqb_eq in H1, H2, H3. subst k. apply permb_perm in H4.
  unfold run_bot. rewrite fold_left_app. pose proof (chk_run X Y HX HY 0 n 0 pre _ 0 1 _ col m ps E (begin_inv X Y n HX HY)) as I.
  destruct (fold_left (cexec w X Y 0) pre (mul_begin w n X Y)) as [[[R c] d0] d1]. destruct I as (I1 & I2 & I3 & I4 & I5 & I6 & I7 & I8). cbn [fold_left cexec].
  destruct (bacc_run X Y n post (upd col c R) (wd w (d0 + at_ X i * at_ Y j)) d0 d1 qs HX HY ltac:(lia) E2 ltac:(apply (wd_range w); auto)) as (c' & F1 & F2 & F3).
  rewrite F1. unfold cc, cR. cbn [fst snd]. cbv zeta. split; [apply W_upd; auto; apply W_upd; auto|]. split; [rewrite !upd_len; auto|].
  rewrite V_upd by (rewrite upd_len; lia). rewrite at_upd_other by lia. rewrite V_upd by lia. rewrite !I3 by lia.
  rewrite (prod_cols X Y n (fun c => (c <? n)%nat) LX LY), <- (sumt_perm X Y 0 _ _ H4), sumt_cons, sumt_app, sumt_cons.
  rewrite (sumt_high X Y n (colp _ n)) by (intros p Hp; apply colp_in in Hp; apply negb_true_iff, Nat.ltb_ge in Hp; auto).
  rewrite (Z.mul_comm (P n)), Z.mod_add by (pose proof (P_pos w n); lia).
  assert (Bd : 0 <= V R + P col * (c - 0) + P (n - 1) * (c' - 0) < P n).
  { pose proof (V_bound w (upd (n - 1) c' (upd col c R)) ltac:(apply W_upd; auto; apply W_upd; auto)) as VB. rewrite !upd_len, I2 in VB.
    rewrite V_upd in VB by (rewrite upd_len; lia). rewrite at_upd_other in VB by lia. rewrite V_upd in VB by lia. rewrite !I3 in VB by lia. exact VB. }
  rewrite <- (Z.mod_small _ _ Bd). rewrite !Z.sub_0_r. rewrite Z.add_mod, F3, <- Z.add_mod by (pose proof (P_pos w n); lia).
  rewrite Z.add_assoc. unfold term in *. cbn [fst snd] in *. replace (i + j - 0)%nat with (n - 1)%nat by lia.
  assert (PN : P n = P (n - 1) * B) by (replace n with (S (n - 1)) at 1 by lia; rewrite P_S; ring). assert (PC : P (n - 1) = B * P col) by (replace (n - 1)%nat with (S col) by lia; apply (P_S w)).
  unfold wd. pose proof (B_pos w). rewrite (Z.mod_eq (d0 + _) B) by lia. pose proof (P_pos w n).
  replace (V R + P col * c + P (n - 1) * (d0 + at_ X i * at_ Y j - B * ((d0 + at_ X i * at_ Y j) / B)) + sumt X Y 0 qs) with
   (P (0 + 0 - 0) * (at_ X 0 * at_ Y 0) + (sumt X Y 0 ps + (P (n - 1) * (at_ X i * at_ Y j) + sumt X Y 0 qs)) + (- d1 - (d0 + at_ X i * at_ Y j) / B) * P n).
  - rewrite Z.mod_add by lia. reflexivity.
  - unfold acc3 in I8. rewrite Z.add_assoc, <- I8, PN, PC. ring.
Qed.
Lemma bot_2_ok : bot_ok 2 bot_2 = true. Proof. vm_compute. reflexivity. Qed.
Lemma bot_4_ok : bot_ok 4 bot_4 = true. Proof. vm_compute. reflexivity. Qed.
Lemma bot_8_ok : bot_ok 8 bot_8 = true. Proof. vm_compute. reflexivity. Qed.
Lemma bot_16_ok : bot_ok 16 bot_16 = true. Proof. vm_compute. reflexivity. Qed.

(** ** High halves *)
Definition his (X Y : list Z) (l : list (nat * nat)) : Z := fold_right (fun p s => (at_ X (fst p) * at_ Y (snd p)) / B + s) 0 l.
Definition los (X Y : list Z) (l : list (nat * nat)) : Z := fold_right (fun p s => (at_ X (fst p) * at_ Y (snd p)) mod B + s) 0 l.
Definition top_ok (n : nat) (l : list cstep) : bool :=
  match split_at_ is_t0 l with
  | (pre, TSave0 i0 j0 :: post) =>
    match split_at_ is_t1 post with
    | (mid, TSave1 i1 j1 :: rest) =>
      match chk_tacc pre (n - 2), chk (n - 1) n mid 0 2, chk n n (removelast rest) 0 2, last rest (BAcc 0 0) with
      | Some p0, Some (0, m1, p1), Some (col, _, p2), MEnd k i =>
        (length pre <? 50)%nat && (m1 <? 100)%nat && (i0 + j0 =? n - 1)%nat && (i1 + j1 =? n)%nat && (k =? col)%nat && (col + 3 =? n)%nat && (i + i =? S col + n)%nat &&
        permb ((0, n - 2)%nat :: p0) (colp (fun c => (c =? n - 2)%nat) n) && permb ((i0, j0) :: p1) (colp (fun c => (c =? n - 1)%nat) n) &&
        permb ((i1, j1) :: p2 ++ [(i, i)]) (colp (fun c => (n <=? c)%nat) n)
      | _, _, _, _ => false
      end
    | _ => false
    end
  | _ => false
  end%nat.
Lemma his_cons : forall X Y p l, his X Y (p :: l) = (at_ X (fst p) * at_ Y (snd p)) / B + his X Y l.
Proof. reflexivity. Qed.
Lemma los_cons : forall X Y p l, los X Y (p :: l) = (at_ X (fst p) * at_ Y (snd p)) mod B + los X Y l.
Proof. reflexivity. Qed.
Lemma tacc_run : forall X Y Lw l n (R : list Z) (c : Z) d0 d1 ps m, W X -> W Y -> chk_tacc l n = Some ps -> 0 <= d0 < B -> 0 <= d1 < B -> d0 + B * d1 <= m * B -> 0 <= m -> m + Z.of_nat (length l) <= 200 ->
  exists d0' d1', fold_left (cexec w X Y Lw) l (R, c, d0, d1) = (R, c, d0', d1') /\ 0 <= d0' < B /\ 0 <= d1' < B /\ d0' + B * d1' = d0 + B * d1 + his X Y ps.
Proof.
  induction l as [|x l IH]; intros n R c d0 d1 ps m HX HY H H0 H1 Hm Hm0 Hl. { inversion H; subst. exists d0, d1. cbn [fold_left]. split; auto. split; auto. split; auto. change (his X Y []) with 0. lia. }
  destruct x; cbn [chk_tacc] in H; try discriminate. destruct (Nat.eqb_spec (i + j) n); [|discriminate]. destruct (chk_tacc l n) as [q|] eqn:E; [|discriminate]. inversion H; subst ps; clear H.
  cbn [fold_left cexec]. destruct (mulwords_spec w (at_ X i) (at_ Y j) (W_at w X i HX) (W_at w Y j HY)) as (M1 & M2 & M3).
  assert (Eh : snd (mulwords w (at_ X i) (at_ Y j)) = (at_ X i * at_ Y j) / B) by reflexivity. destruct (mulwords w (at_ X i) (at_ Y j)) as [p0 p1]. cbn [fst snd length] in *.
  pose proof (B_big w) as HB. change (2 ^ 32) with 4294967296 in HB. rewrite Nat2Z.inj_succ in Hl.
  destruct (acc2by1_spec w d0 d1 p1 H0 ltac:(lia) ltac:(lia) ltac:(nia)) as (N1 & N2 & N3). destruct (acc2by1 w d0 d1 p1) as [q0 q1]. cbn [fst snd] in *.
  destruct (IH n R c q0 q1 q (m + 1) HX HY E N1 N2 ltac:(lia) ltac:(lia) ltac:(lia)) as (e0 & e1 & F1 & F2 & F3 & F4). exists e0, e1. split; auto. split; auto. split; auto.
  rewrite F4, N3, his_cons. cbn [fst snd]. rewrite <- Eh. lia.
Qed.
Lemma sumt_col : forall X Y k l, (forall p, In p l -> (fst p + snd p = k)%nat) -> sumt X Y 0 l = P k * (los X Y l + B * his X Y l).
Proof.
  induction l; intros H. { change (sumt X Y 0 []) with 0. change (his X Y []) with 0. change (los X Y []) with 0. lia. }
  rewrite sumt_cons, his_cons, los_cons, IHl by (intros; apply H; right; auto). unfold term. rewrite Nat.sub_0_r, (H a (or_introl eq_refl)).
  pose proof (Z.div_mod (at_ X (fst a) * at_ Y (snd a)) B ltac:(pose proof (B_pos w); lia)) as D. rewrite D at 1. ring.
Qed.
Lemma his_perm : forall X Y a b, Permutation a b -> his X Y a = his X Y b.
Proof. induction 1; auto; rewrite ?his_cons in *; try lia. Qed.
Lemma sumt_same : forall X Y k l, (forall p, In p l -> (fst p + snd p = k)%nat) -> sumt X Y k l * P k = sumt X Y 0 l.
Proof. intros. rewrite (sumt_high X Y k l); [ring|]. intros p Hp. rewrite (H p Hp). lia. Qed.
Lemma sumt_bound : forall X Y k l, W X -> W Y -> (forall p, In p l -> (fst p + snd p + 3 <= k)%nat) -> 0 <= sumt X Y 0 l <= Z.of_nat (length l) * P (k - 1).
Proof.
  induction l; intros HX HY H. { change (sumt X Y 0 []) with 0. cbn. lia. }
  destruct (IHl HX HY) as [I1 I2]; [intros; apply H; right; auto|]. cbn [length]. rewrite sumt_cons, Nat2Z.inj_succ. unfold term. rewrite Nat.sub_0_r.
  pose proof (W_at w X (fst a) HX) as Ha. pose proof (W_at w Y (snd a) HY) as Hb. specialize (H a (or_introl eq_refl)). pose proof (P_pos w (fst a + snd a)).
  assert (at_ X (fst a) * at_ Y (snd a) <= B * B) by (apply Z.mul_le_mono_nonneg; lia). assert (0 <= at_ X (fst a) * at_ Y (snd a)) by (apply Z.mul_nonneg_nonneg; lia).
  assert (P (fst a + snd a) * (B * B) <= P (k - 1)).
  { replace (B * B) with (P 2) by (rewrite <- !(P_1 w), <- P_add; reflexivity). rewrite <- P_add. apply (P_mono w). lia. }
  assert (0 <= P (fst a + snd a) * (at_ X (fst a) * at_ Y (snd a)) <= P (fst a + snd a) * (B * B)). { split; [apply Z.mul_nonneg_nonneg; lia|apply Z.mul_le_mono_nonneg_l; lia]. }
  lia.
Qed.
Lemma los_bound : forall X Y l, 0 <= los X Y l <= Z.of_nat (length l) * B.
Proof.
  induction l. { change (los X Y []) with 0. cbn. lia. } rewrite los_cons. cbn [length]. rewrite Nat2Z.inj_succ. pose proof (Z.mod_pos_bound (at_ X (fst a) * at_ Y (snd a)) B (B_pos w)). lia.
Qed.
Lemma colp_len : forall f n, (length (colp f n) <= n * n)%nat.
Proof.
  intros. unfold colp. assert (G : forall (A : Type) (g : A -> bool) l, (length (filter g l) <= length l)%nat). { induction l; cbn; auto. destruct (g a); cbn; lia. }
  rewrite (G _ _ (list_prod _ _)), prod_length, !seq_length. lia.
Qed.
(** The four ranges of columns. *)
Lemma prod_four : forall X Y n, (2 <= n)%nat -> length X = n -> length Y = n ->
  V X * V Y = sumt X Y 0 (colp (fun c => (c <? n - 2)%nat) n) + sumt X Y 0 (colp (fun c => (c =? n - 2)%nat) n) + sumt X Y 0 (colp (fun c => (c =? n - 1)%nat) n) + sumt X Y 0 (colp (fun c => (n <=? c)%nat) n).
Proof.
  intros X Y n Hn LX LY. rewrite <- (sum_prod X Y n n) by auto. unfold colp. generalize (list_prod (seq 0 n) (seq 0 n)) as l.
  induction l; [reflexivity|]. cbn [filter]. set (c := (fst a + snd a)%nat). rewrite sumt_cons, IHl.
  destruct (Nat.ltb_spec c (n - 2)), (Nat.eqb_spec c (n - 2)), (Nat.eqb_spec c (n - 1)), (Nat.leb_spec n c); try lia; rewrite ?sumt_cons; ring.
Qed.
Lemma run_top_spec : forall n l X Y Lw, top_ok n l = true -> (2 <= n <= 100)%nat -> W X -> W Y -> length X = n -> length Y = n -> Lw = (V X * V Y / P (n - 1)) mod B ->
  let R := run_top w n l X Y Lw in W R /\ length R = n /\ V R = (V X * V Y) / P n.
Proof.
  intros n l X Y Lw H Hn HX HY LX LY HL. unfold top_ok in H. destruct (split_at_ is_t0 l) as [pre post] eqn:S1. apply split_at_app in S1. subst l.
  destruct post as [|[ | | | | | |i0 j0| ] post]; try discriminate. destruct (split_at_ is_t1 post) as [mid rest] eqn:S2. apply split_at_app in S2. subst post.
  destruct rest as [|[ | | | | | | |i1 j1] rest]; try discriminate. destruct (chk_tacc pre (n - 2)) as [p0|] eqn:E0; [|discriminate].
  destruct (chk (n - 1) n mid 0 2) as [[[[|?] m1] p1]|] eqn:E1; try discriminate. destruct (chk n n (removelast rest) 0 2) as [[[col m2] p2]|] eqn:E2; [|discriminate].
  destruct (last rest (BAcc 0 0)) as [ | |k i| | | | | ] eqn:EL; try discriminate.
  apply andb_true_iff in H. destruct H as [H Q10]. apply andb_true_iff in H. destruct H as [H Q9]. apply andb_true_iff in H. destruct H as [H Q8]. apply andb_true_iff in H. destruct H as [H Q7]. apply andb_true_iff in H. destruct H as [H Q6].
  apply andb_true_iff in H. destruct H as [H Q5]. apply andb_true_iff in H. destruct H as [H Q4]. apply andb_true_iff in H. destruct H as [H Q3]. apply andb_true_iff in H. destruct H as [Q1 Q2].
  apply Nat.eqb_eq in Q3, Q4, Q5, Q6, Q7. apply Nat.ltb_lt in Q1, Q2. apply permb_perm in Q8, Q9, Q10. subst k.
  assert (D : rest = removelast rest ++ [MEnd col i]). { rewrite <- EL. apply app_removelast_last. intros ->. discriminate. }
  unfold run_top. destruct (mulwords_spec w (at_ X 0) (at_ Y (n - 2)) (W_at w X 0 HX) (W_at w Y (n - 2) HY)) as (M1 & M2 & M3).
  assert (Eh : snd (mulwords w (at_ X 0) (at_ Y (n - 2))) = (at_ X 0 * at_ Y (n - 2)) / B) by reflexivity. destruct (mulwords w (at_ X 0) (at_ Y (n - 2))) as [b0 b1]. cbn [fst snd] in *.
  pose proof (B_big w) as HB. change (2 ^ 32) with 4294967296 in HB.
  rewrite fold_left_app. destruct (tacc_run X Y Lw pre (n - 2) (repeat 0 n) 0 b1 0 p0 1 HX HY E0 ltac:(lia) ltac:(lia) ltac:(lia) ltac:(lia) ltac:(lia)) as (d0 & d1 & F1 & F2 & F3 & F4).
  rewrite F1. cbn [fold_left]. rewrite fold_left_app. cbn [fold_left].
  set (Hs := his X Y (colp (fun c => (c =? n - 2)%nat) n)). assert (F5 : d0 + B * d1 = Hs). { unfold Hs. rewrite F4, <- (his_perm X Y _ _ Q8), his_cons. cbn [fst snd]. rewrite <- Eh. lia. }
  cbn [cexec].
  pose proof (mulacc_spec d0 d1 0 (at_ X i0) (at_ Y j0) 1 F2 F3 ltac:(lia) (W_at w X i0 HX) (W_at w Y j0 HY) ltac:(lia) ltac:(unfold acc3; nia)) as M.
  destruct (mulacc w d0 d1 0 (at_ X i0) (at_ Y j0)) as [[c2 e0] e1]. destruct M as (G1 & G2 & G3 & G4 & G5).
  assert (Z0 : forall k, at_ (repeat 0 n) k = 0) by (intros k; unfold at_; rewrite nth_repeat; auto).
  assert (I0 : inv n (repeat 0 n, c2, e0, e1) 0 2 (Hs + at_ X i0 * at_ Y j0)).
  { unfold inv. split; [apply (W_repeat0 w)|]. split; [apply repeat_length|]. split; [auto|]. split; auto. split; auto. split; auto. split; [exact G5|]. rewrite V_repeat0, P_0, G4. unfold acc3. lia. }
  pose proof (chk_run X Y HX HY Lw n (n - 1) mid _ 0 2 _ 0 m1 p1 E1 I0) as I1.
  assert (RZ : forall l s m m' ps, chk (n - 1) n l 0 m = Some (0%nat, m', ps) -> cR (fold_left (cexec w X Y Lw) l s) = cR s).
  { clear. assert (Mono : forall l col m c m' ps, chk (n - 1) n l col m = Some (c, m', ps) -> (col <= c)%nat).
    { induction l; intros col m c m' ps H; cbn [chk] in H; [inversion H; lia|]. destruct a; try discriminate.
      - destruct ((k =? col)%nat && (i + j =? S col + (n - 1))%nat && (k <? n)%nat); [|discriminate]. destruct (chk (n - 1) n l (S col) 2) as [[[? ?] ?]|] eqn:E; [|discriminate]. inversion H; subst. apply IHl in E. lia.
      - destruct ((i + j =? col + (n - 1))%nat && (m <? 100)%nat); [|discriminate]. destruct (chk (n - 1) n l col (S m)) as [[[? ?] ?]|] eqn:E; [|discriminate]. inversion H; subst. apply IHl in E. lia. }
    induction l; intros s m m' ps H; auto. cbn [chk] in H. destruct a; try discriminate.
    - destruct ((k =? 0)%nat && (i + j =? 1 + (n - 1))%nat && (k <? n)%nat); [|discriminate]. destruct (chk (n - 1) n l 1 2) as [[[? ?] ?]|] eqn:E; [|discriminate]. inversion H; subst. apply Mono in E. lia.
    - destruct ((i + j =? 0 + (n - 1))%nat && (m <? 100)%nat); [|discriminate]. destruct (chk (n - 1) n l 0 (S m)) as [[[? ?] ?]|] eqn:E; [|discriminate]. inversion H; subst. cbn [fold_left]. rewrite (IHl _ _ _ _ E).
      destruct s as [[[R c] d0] d1]. cbn [cexec]. destruct (mulacc w c d0 d1 (at_ X i) (at_ Y j)) as [[? ?] ?]. reflexivity. }
  specialize (RZ mid (repeat 0 n, c2, e0, e1) 2%nat m1 p1 E1). destruct (fold_left (cexec w X Y Lw) mid (repeat 0 n, c2, e0, e1)) as [[[R c] f0] f1]. cbn [cR fst] in RZ. subst R.
  destruct I1 as (_ & _ & _ & J4 & J5 & J6 & J7 & J8). rewrite V_repeat0, P_0 in J8.
  set (S1 := sumt X Y (n - 1) (colp (fun c => (c =? n - 1)%nat) n)).
  assert (J9 : acc3 c f0 f1 = Hs + S1). { unfold S1. rewrite <- (sumt_perm X Y (n - 1) _ _ Q9), sumt_cons. unfold term. cbn [fst snd]. rewrite Q3, Nat.sub_diag, P_0. lia. }
  clear J8 I0 G4 G5 F4. cbn [cexec].
  assert (f1 <= 100). { unfold acc3 in J7. assert (B * B * f1 <= 100 * (B * B)) by nia. clear - H HB. assert (0 < B * B) by nia. nia. }
  set (bit := b2z (Lw <? c)). assert (Bit : 0 <= bit <= 1) by (unfold bit; destruct (Lw <? c); cbn; lia).
  destruct (acc2by1_spec w f0 f1 bit J5 ltac:(lia) ltac:(lia) ltac:(nia)) as (K1 & K2 & K3). destruct (acc2by1 w f0 f1 bit) as [g0 g1]. cbn [fst snd] in *.
  pose proof (mulacc_spec g0 g1 0 (at_ X i1) (at_ Y j1) 1 K1 K2 ltac:(lia) (W_at w X i1 HX) (W_at w Y j1 HY) ltac:(lia) ltac:(unfold acc3; nia)) as M.
  destruct (mulacc w g0 g1 0 (at_ X i1) (at_ Y j1)) as [[c3 h0] h1]. destruct M as (N1 & N2 & N3 & N4 & N5).
  assert (I2 : inv n (repeat 0 n, c3, h0, h1) 0 2 (f0 + B * f1 + bit + at_ X i1 * at_ Y j1)).
  { unfold inv. split; [apply (W_repeat0 w)|]. split; [apply repeat_length|]. split; [auto|]. split; auto. split; auto. split; auto. split; [exact N5|]. rewrite V_repeat0, P_0, N4. unfold acc3. lia. }
  pose proof (chk_run X Y HX HY Lw n n (removelast rest) _ 0 2 _ col m2 p2 E2 I2) as I3.
  rewrite D, fold_left_app. cbn [fold_left].
  set (S2 := sumt X Y n (colp (fun c => (n <=? c)%nat) n)).
  assert (E3 : f0 + B * f1 + bit + at_ X i1 * at_ Y j1 + sumt X Y n p2 + term X Y n (i, i) = f0 + B * f1 + bit + S2).
  { unfold S2. rewrite <- (sumt_perm X Y n _ _ Q10), sumt_cons, sumt_app, sumt_cons. change (sumt X Y n []) with 0. unfold term at 2. cbn [fst snd]. rewrite Q4, Nat.sub_diag, P_0. ring. }
  (* the value *)
  set (Ex := sumt X Y 0 (colp (fun c => (c <? n - 2)%nat) n) + P (n - 2) * los X Y (colp (fun c => (c =? n - 2)%nat) n)).
  assert (Tot : V X * V Y = Ex + P (n - 1) * (Hs + S1 + B * S2)).
  { rewrite (prod_four X Y n) by (auto; lia). rewrite (sumt_col X Y (n - 2) (colp (fun c => (c =? n - 2)%nat) n)) by (intros p Hp; apply colp_in, Nat.eqb_eq in Hp; auto).
    rewrite <- (sumt_same X Y (n - 1) (colp (fun c => (c =? n - 1)%nat) n)) by (intros p Hp; apply colp_in, Nat.eqb_eq in Hp; auto). fold S1.
    rewrite (sumt_high X Y n (colp (fun c => (n <=? c)%nat) n)) by (intros p Hp; apply colp_in, Nat.leb_le in Hp; auto). fold S2. fold Hs. unfold Ex.
    replace (P n) with (B * P (n - 1)) by (rewrite <- P_S; f_equal; lia). replace (P (n - 1)) with (B * P (n - 2)) by (rewrite <- P_S; f_equal; lia). ring. }
  assert (ExB : 0 <= Ex < P (n - 1) * B).
  { pose proof (sumt_bound X Y n (colp (fun c => (c <? n - 2)%nat) n) HX HY ltac:(intros p Hp; apply colp_in, Nat.ltb_lt in Hp; lia)) as A1.
    pose proof (los_bound X Y (colp (fun c => (c =? n - 2)%nat) n)) as A2.
    pose proof (colp_len (fun c => (c <? n - 2)%nat) n). pose proof (colp_len (fun c => (c =? n - 2)%nat) n). pose proof (P_pos w (n - 1)). pose proof (P_pos w (n - 2)).
    assert (NN : Z.of_nat (n * n) <= 10000) by (rewrite Nat2Z.inj_mul; clear - Hn; nia). set (k1 := length (colp (fun c => (c <? n - 2)%nat) n)) in *. set (k2 := length (colp (fun c => (c =? n - 2)%nat) n)) in *.
    assert (PE : P (n - 1) = B * P (n - 2)) by (rewrite <- P_S; f_equal; lia).
    unfold Ex. assert (0 <= P (n - 2) * los X Y (colp (fun c => (c =? n - 2)%nat) n) <= Z.of_nat k2 * P (n - 1)) by (clear - A2 H3 PE; rewrite PE; split; [apply Z.mul_nonneg_nonneg; lia|]; nia).
    assert (K1' : Z.of_nat k1 <= 10000) by lia. assert (K2' : Z.of_nat k2 <= 10000) by lia. clear - A1 H4 K1' K2' H2 HB. nia. }
  pose proof (P_pos w (n - 1)) as PP. set (e := Ex / P (n - 1)).
  assert (eB : 0 <= e < B). { unfold e. split; [apply Z.div_pos; lia|apply Z.div_lt_upper_bound; lia]. }
  assert (TD : V X * V Y / P (n - 1) = e + (acc3 c f0 f1 + B * S2)). { rewrite Tot, J9, (Z.mul_comm (P (n - 1))), Z.div_add by lia. reflexivity. }
  assert (LE : Lw = (e + c) mod B). { rewrite HL, TD. unfold acc3. replace (e + (c + B * f0 + B * B * f1 + B * S2)) with (e + c + (f0 + B * f1 + S2) * B) by ring. apply Z.mod_add. lia. }
  assert (BE : (e + c) / B = bit).
  { unfold bit. rewrite LE. destruct (Z.ltb_spec (e + c) B).
    - rewrite Z.mod_small, Z.div_small by lia. destruct (Z.ltb_spec (e + c) c); cbn; lia.
    - replace ((e + c) mod B) with (e + c - B) by (apply Z.mod_unique with 1; lia). replace ((e + c) / B) with 1 by (apply Z.div_unique with (e + c - B); lia). destruct (Z.ltb_spec (e + c - B) c); cbn; lia. }
  assert (VE : f0 + B * f1 + bit + S2 = V X * V Y / P n).
  { replace (P n) with (P (n - 1) * B) by (rewrite Z.mul_comm, <- P_S; f_equal; lia). rewrite <- Z.div_div, TD by lia. unfold acc3.
    replace (e + (c + B * f0 + B * B * f1 + B * S2)) with (e + c + (f0 + B * f1 + S2) * B) by ring. rewrite Z.div_add, BE by lia. ring. }
  pose proof (end_run X Y HX HY Lw n n _ col m2 _ i I3 ltac:(lia) ltac:(lia)) as Rr. rewrite E3, VE in Rr. apply Rr.
  pose proof (V_bound w X HX) as BX. pose proof (V_bound w Y HY) as BY. rewrite LX in BX. rewrite LY in BY. apply Z.div_lt_upper_bound; [apply (P_pos w)|]. nia.
Qed.
Lemma top_4_ok : top_ok 4 top_4 = true. Proof. vm_compute. reflexivity. Qed.
Lemma top_8_ok : top_ok 8 top_8 = true. Proof. vm_compute. reflexivity. Qed.
Lemma top_16_ok : top_ok 16 top_16 = true. Proof. vm_compute. reflexivity. Qed.
(** ** Squares *)
Lemma acc3by2_spec : forall c d0 d1 e0 e1, 0 <= c < B -> 0 <= d0 < B -> 0 <= d1 < B -> 0 <= e0 < B -> 0 <= e1 < B -> acc3 c d0 d1 <= 100 * (B * B) -> e0 + B * e1 <= 200 * B ->
  let '(c', f0, f1) := acc3by2 w c d0 d1 e0 e1 in 0 <= c' < B /\ 0 <= f0 < B /\ 0 <= f1 < B /\ c' + B * (f0 + B * f1) = acc3 c d0 d1 + (e0 + B * e1) /\ f0 + B * f1 <= 200 * B.
Proof.
  intros c d0 d1 e0 e1 Hc H0 H1 G0 G1 HX HE. unfold acc3by2, acc3 in *. pose proof (B_big w) as HB. change (2 ^ 32) with 4294967296 in HB.
  assert (Q1 : e1 <= 200) by (clear - HE G0 HB; nia). assert (Q2 : d1 <= 100). { assert (B * B * d1 <= 100 * (B * B)) by nia. clear - H HB. assert (0 < B * B) by nia. nia. }
  destruct (acc2by1_spec w e0 e1 c G0 Hc ltac:(lia) ltac:(clear - Q1 HB G0 Hc; nia)) as (N1 & N2 & N3). destruct (acc2by1 w e0 e1 c) as [g0 g1]. cbn [fst snd] in *.
  destruct (acc2by1_spec w d0 d1 g1 H0 N2 ltac:(lia) ltac:(clear - Q2 HB H0 N2; nia)) as (K1 & K2 & K3). destruct (acc2by1 w d0 d1 g1) as [k0 k1]. cbn [fst snd] in *.
  assert (E : g0 + B * (k0 + B * k1) = c + B * d0 + B * B * d1 + (e0 + B * e1)). { rewrite K3. transitivity ((g0 + B * g1) + B * d0 + B * B * d1); [ring|]. rewrite N3. ring. }
  split; auto. split; auto. split; auto. split; auto. rewrite K3. clear - Q2 HB H0 N2. nia.
Qed.
Lemma double3_spec : forall c d0 d1, 0 <= c < B -> 0 <= d0 < B -> 0 <= d1 <= 100 ->
  let '(c', d0', d1') := double3 w c d0 d1 in 0 <= c' < B /\ 0 <= d0' < B /\ 0 <= d1' < B /\ acc3 c' d0' d1' = 2 * acc3 c d0 d1.
Proof.
  intros c d0 d1 Hc H0 H1. unfold double3. pose proof (B_big w) as HB. change (2 ^ 32) with 4294967296 in HB. pose proof (B_half w) as HH. pose proof (Hw w).
  assert (S1 : forall x, 0 <= x < B -> exists h, Z.shiftr x (w - 1) = h /\ 0 <= h <= 1 /\ B * h <= 2 * x < B * (h + 1)).
  { intros x Hx. rewrite Z.shiftr_div_pow2 by lia. exists (x / 2 ^ (w - 1)). split; auto. pose proof (p2 (w - 1) ltac:(lia)). pose proof (Z.div_mod x (2 ^ (w - 1)) ltac:(lia)). pose proof (Z.mod_pos_bound x (2 ^ (w - 1)) ltac:(lia)).
    assert (x / 2 ^ (w - 1) < 2) by (apply Z.div_lt_upper_bound; lia). assert (0 <= x / 2 ^ (w - 1)) by (apply Z.div_pos; lia). split; [lia|]. rewrite HH. nia. }
  destruct (S1 c Hc) as (h1 & E1 & R1 & Q1). destruct (S1 d0 H0) as (h2 & E2 & R2 & Q2). rewrite E1, E2.
  assert (A1 : wd w (c * 2) = c * 2 - B * h1) by (unfold wd; symmetry; apply Z.mod_unique with h1; lia).
  assert (A2 : wd w (2 * d0 + h1) = 2 * d0 + h1 - B * h2).
  { unfold wd. symmetry. apply Z.mod_unique with h2; [|lia]. left. split; [lia|]. assert (2 * d0 + 2 <= B * (h2 + 1)); [|lia]. rewrite HH in *. clear - Q2. nia. }
  assert (A3 : wd w (2 * d1 + h2) = 2 * d1 + h2) by (apply wd_small; lia). rewrite A1, A2, A3.
  assert (2 * d0 + 2 <= B * (h2 + 1)) by (rewrite HH in *; clear - Q2; nia).
  split; [lia|]. split; [lia|]. split; [lia|]. unfold acc3. ring.
Qed.
Definition inv_s (N : nat) (s : qstate) (col m : nat) (pend : bool) (T : Z) : Prop :=
  let '(R, c, d0, d1, e0, e1) := s in
  W R /\ length R = N /\ (forall k, (col <= k)%nat -> at_ R k = 0) /\ 0 <= c < B /\ 0 <= d0 < B /\ 0 <= d1 < B /\ 0 <= e0 < B /\ 0 <= e1 < B /\ (m <= 100)%nat /\
  acc3 c d0 d1 <= Z.of_nat m * (B * B) /\ e0 + B * e1 <= 200 * B /\ V R + P col * ((if pend then 2 else 1) * acc3 c d0 d1 + (e0 + B * e1)) = T.
Lemma d1_small : forall c d0 d1 m, 0 <= c -> 0 <= d0 -> 0 <= m -> acc3 c d0 d1 <= m * (B * B) -> d1 <= m.
Proof.
  intros c d0 d1 m Hc H0 Hm H. unfold acc3 in H. pose proof (B_pos w). assert (B * B * d1 <= m * (B * B)) by nia. clear - H1 H2. assert (0 < B * B) by nia. nia.
Qed.
Lemma chks_run : forall X N, W X -> forall l s col m pend T col' m' ps, chks N l col m pend = Some (col', m', ps) -> inv_s N s col m pend T ->
  inv_s N (fold_left (sexec w X) l s) col' m' false (T + sumt X X 0 ps).
Proof.
  intros X N HX. induction l as [|x l IH]; intros s col m pend T col' m' ps H I.
  { cbn [chks] in H. destruct pend; [discriminate|]. inversion H; subst. cbn [fold_left]. change (sumt X X 0 []) with 0. rewrite Z.add_0_r. auto. }
  destruct s as [[[[[R c] d0] d1] e0] e1]. destruct I as (I1 & I2 & I3 & I4 & I5 & I6 & I7 & I8 & I9 & I10 & I11 & I12). pose proof (B_big w) as HB. change (2 ^ 32) with 4294967296 in HB.
  destruct x; cbn [chks] in H; cbn [fold_left].
  - destruct (negb pend && (k =? col)%nat && (i + j =? S col)%nat && (k <? N)%nat)%bool eqn:E; [|discriminate].
    apply andb_true_iff in E. destruct E as [E E4]. apply andb_true_iff in E. destruct E as [E E3]. apply andb_true_iff in E. destruct E as [E1 E2]. apply negb_true_iff in E1. apply Nat.eqb_eq in E2, E3. apply Nat.ltb_lt in E4. subst k pend.
    destruct (chks N l (S col) 1 true) as [[[c1 m1] p1]|] eqn:Q; [|discriminate]. assert (c1 = col') by congruence. assert (m1 = m') by congruence. assert (ps = (i, j) :: (j, i) :: p1) by congruence. subst c1 m1 ps. clear H.
    rewrite !sumt_cons, !Z.add_assoc. eapply IH; eauto. cbn [sexec].
    pose proof (acc3by2_spec c d0 d1 e0 e1 I4 I5 I6 I7 I8 ltac:(nia) I11) as M. destruct (acc3by2 w c d0 d1 e0 e1) as [[c2 f0] f1]. destruct M as (M1 & M2 & M3 & M4 & M5).
    destruct (mulwords_spec w (at_ X i) (at_ X j) (W_at w X i HX) (W_at w X j HX)) as (L1 & L2 & L3). destruct (mulwords w (at_ X i) (at_ X j)) as [p0 q1]. cbn [fst snd] in *.
    split; [apply W_upd; auto|]. split; [rewrite upd_len; auto|]. split. { intros k Hk. rewrite at_upd_other by lia. apply I3. lia. }
    split; auto. split; [lia|]. split; [lia|]. split; auto. split; auto. split; [lia|]. split; [unfold acc3; change (Z.of_nat 1) with 1; nia|]. split; auto.
    rewrite V_upd by lia. rewrite I3 by lia. unfold term. cbn [fst snd]. rewrite !Nat.sub_0_r, (Nat.add_comm j i), E3, P_S. subst T.
    transitivity (V R + P col * (c2 + B * (f0 + B * f1)) + B * P col * (2 * (p0 + B * q1))); [unfold acc3; ring|]. rewrite M4, L3. ring.
  - destruct (pend && (i + j =? col)%nat && (m <? 100)%nat)%bool eqn:E; [|discriminate].
    apply andb_true_iff in E. destruct E as [E E3]. apply andb_true_iff in E. destruct E as [E1 E2]. apply Nat.eqb_eq in E2. apply Nat.ltb_lt in E3. subst pend.
    destruct (chks N l col (S m) true) as [[[c1 m1] p1]|] eqn:Q; [|discriminate]. assert (c1 = col') by congruence. assert (m1 = m') by congruence. assert (ps = (i, j) :: (j, i) :: p1) by congruence. subst c1 m1 ps. clear H.
    rewrite !sumt_cons, !Z.add_assoc. eapply IH; eauto. cbn [sexec].
    pose proof (mulacc_spec c d0 d1 (at_ X i) (at_ X j) (Z.of_nat m) I4 I5 I6 (W_at w X i HX) (W_at w X j HX) ltac:(lia) I10) as M.
    destruct (mulacc w c d0 d1 (at_ X i) (at_ X j)) as [[c2 f0] f1]. destruct M as (M1 & M2 & M3 & M4 & M5).
    split; auto. split; auto. split; auto. split; auto. split; auto. split; auto. split; auto. split; auto. split; [lia|]. split; [rewrite Nat2Z.inj_succ; exact M5|]. split; auto.
    rewrite M4. unfold term. cbn [fst snd]. rewrite !Nat.sub_0_r, (Nat.add_comm j i), E2. subst T. ring.
  - destruct (pend && (i + i =? col)%nat && (m <? 40)%nat)%bool eqn:E; [|discriminate].
    apply andb_true_iff in E. destruct E as [E E3]. apply andb_true_iff in E. destruct E as [E1 E2]. apply Nat.eqb_eq in E2. apply Nat.ltb_lt in E3. subst pend.
    destruct (chks N l col (S (2 * m)) false) as [[[c1 m1] p1]|] eqn:Q; [|discriminate]. assert (c1 = col') by congruence. assert (m1 = m') by congruence. assert (ps = (i, i) :: p1) by congruence. subst c1 m1 ps. clear H.
    rewrite !sumt_cons, !Z.add_assoc. eapply IH; eauto. cbn [sexec].
    pose proof (d1_small c d0 d1 (Z.of_nat m) ltac:(lia) ltac:(lia) ltac:(lia) I10) as Dm.
    pose proof (double3_spec c d0 d1 I4 I5 ltac:(lia)) as D. destruct (double3 w c d0 d1) as [[c3 g0] g1]. destruct D as (D1 & D2 & D3 & D4).
    pose proof (mulacc_spec c3 g0 g1 (at_ X i) (at_ X i) (2 * Z.of_nat m) D1 D2 D3 (W_at w X i HX) (W_at w X i HX) ltac:(lia) ltac:(rewrite D4; lia)) as M.
    destruct (mulacc w c3 g0 g1 (at_ X i) (at_ X i)) as [[c2 f0] f1]. destruct M as (M1 & M2 & M3 & M4 & M5).
    split; auto. split; auto. split; auto. split; auto. split; auto. split; auto. split; auto. split; auto. split; [lia|]. split; [rewrite Nat2Z.inj_succ, Nat2Z.inj_mul; exact M5|]. split; auto.
    rewrite M4, D4. unfold term. cbn [fst snd]. rewrite !Nat.sub_0_r, E2. subst T. ring.
  - destruct (pend && (m <? 40)%nat)%bool eqn:E; [|discriminate]. apply andb_true_iff in E. destruct E as [E1 E3]. apply Nat.ltb_lt in E3. subst pend.
    eapply IH; eauto. cbn [sexec]. pose proof (d1_small c d0 d1 (Z.of_nat m) ltac:(lia) ltac:(lia) ltac:(lia) I10) as Dm.
    pose proof (double3_spec c d0 d1 I4 I5 ltac:(lia)) as D. destruct (double3 w c d0 d1) as [[c3 g0] g1]. destruct D as (D1 & D2 & D3 & D4).
    split; auto. split; auto. split; auto. split; auto. split; auto. split; auto. split; auto. split; auto. split; [lia|]. split; [rewrite D4, Nat2Z.inj_mul; change (Z.of_nat 2) with 2; lia|]. split; auto.
    rewrite D4. subst T. ring.
Qed.
Definition squ_ok (n : nat) (l : list sstep) : bool :=
  match chks (2 * n) l 1 2 false with
  | Some (col, _, ps) => (2 <=? n)%nat && (col + 3 =? 2 * n)%nat && permb ((0, 0) :: (0, 1) :: (1, 0) :: ps ++ [(n - 1, n - 1)])%nat (list_prod (seq 0 n) (seq 0 n))
  | None => false
  end.
Lemma run_squ_spec : forall n l X, squ_ok n l = true -> W X -> length X = n -> let R := run_squ w n l X in W R /\ length R = (2 * n)%nat /\ V R = V X * V X.
Proof.
  intros n l X H HX LX. unfold squ_ok in H. destruct (chks (2 * n) l 1 2 false) as [[[col m] ps]|] eqn:E; [|discriminate].
  apply andb_true_iff in H. destruct H as [H H3]. apply andb_true_iff in H. destruct H as [H1 H2]. apply Nat.leb_le in H1. apply Nat.eqb_eq in H2. apply permb_perm in H3. pose proof (B_big w) as HB. change (2 ^ 32) with 4294967296 in HB.
  unfold run_squ. destruct (mulwords_spec w (at_ X 0) (at_ X 0) (W_at w X 0 HX) (W_at w X 0 HX)) as (M1 & M2 & M3). destruct (mulwords w (at_ X 0) (at_ X 0)) as [p0 p1]. cbn [fst snd] in *.
  destruct (mulwords_spec w (at_ X 0) (at_ X 1) (W_at w X 0 HX) (W_at w X 1 HX)) as (N1 & N2 & N3). destruct (mulwords w (at_ X 0) (at_ X 1)) as [q0 q1]. cbn [fst snd] in *.
  pose proof (double3_spec q0 q1 0 N1 ltac:(lia) ltac:(lia)) as D. destruct (double3 w q0 q1 0) as [[c d0] d1]. destruct D as (D1 & D2 & D3 & D4).
  assert (I0 : inv_s (2 * n) (upd 0 p0 (repeat 0 (2 * n)), c, d0, d1, p1, 0) 1 2 false (term X X 0 (0, 0)%nat + term X X 0 (0, 1)%nat + term X X 0 (1, 0)%nat)).
  { unfold inv_s. split; [apply W_upd; auto; apply (W_repeat0 w)|]. split; [rewrite upd_len; apply repeat_length|]. split. { intros k Hk. rewrite at_upd_other by lia. unfold at_. apply nth_repeat. }
    split; auto. split; auto. split; auto. split; [lia|]. split; [lia|]. split; [lia|]. split; [rewrite D4; unfold acc3; change (Z.of_nat 2) with 2; nia|]. split; [lia|].
    rewrite V_upd by (rewrite repeat_length; lia). rewrite V_repeat0, D4. unfold term, at_ at 1. rewrite nth_repeat. cbn [fst snd Nat.add Nat.sub]. rewrite P_0, P_1, (Z.mul_comm (at_ X 1)), <- M3, <- N3. unfold acc3. ring. }
  pose proof (chks_run X (2 * n) HX l _ _ _ _ _ _ _ _ E I0) as I. destruct (fold_left (sexec w X) l _) as [[[[[R c2] f0] f1] e0] e1].
  destruct I as (I1 & I2 & I3 & I4 & I5 & I6 & I7 & I8 & I9 & I10 & I11 & I12).
  pose proof (acc3by2_spec c2 f0 f1 e0 e1 I4 I5 I6 I7 I8 ltac:(nia) I11) as M. destruct (acc3by2 w c2 f0 f1 e0 e1) as [[c3 g0] g1]. destruct M as (A1 & A2 & A3 & A4 & A5).
  destruct (mulwords_spec w (at_ X (n - 1)) (at_ X (n - 1)) (W_at w X (n - 1) HX) (W_at w X (n - 1) HX)) as (K1 & K2 & K3). destruct (mulwords w (at_ X (n - 1)) (at_ X (n - 1))) as [r0 r1]. cbn [fst snd] in *.
  assert (T : term X X 0 (0, 0)%nat + term X X 0 (0, 1)%nat + term X X 0 (1, 0)%nat + sumt X X 0 ps + term X X 0 (n - 1, n - 1)%nat = V X * V X).
  { rewrite <- (sum_prod X X n n LX LX), <- (sumt_perm X X 0 _ _ H3), !sumt_cons, sumt_app, sumt_cons. change (sumt X X 0 []) with 0. lia. }
  assert (Lt : V X * V X < P (2 * n)). { pose proof (V_bound w X HX) as BX. rewrite LX in BX. replace (2 * n)%nat with (n + n)%nat by lia. rewrite P_add. nia. }
  rewrite <- T, <- I12 in Lt |- *. rewrite Z.mul_1_l in *. rewrite <- A4 in Lt |- *. unfold term in *. cbn [fst snd] in *. replace (n - 1 + (n - 1) - 0)%nat with (S col) in * by lia. rewrite <- K3 in Lt |- *.
  replace (2 * n)%nat with (S (S (S col))) in Lt by lia. rewrite !P_S in *. pose proof (V_bound w R I1) as VB. pose proof (P_pos w col) as PC.
  assert (Bd : r0 + B * r1 + g0 + B * g1 < B * B).
  { assert (Q : P col * (B * (r0 + B * r1 + g0 + B * g1)) < P col * (B * (B * B))) by (clear - Lt VB PC A1; nia). apply Z.mul_lt_mono_pos_l in Q; auto. apply Z.mul_lt_mono_pos_l in Q; auto. lia. }
  destruct (acc2by2_spec r0 r1 g0 g1 K1 ltac:(lia) A2 A3 Bd) as (G1 & G2 & G3). destruct (acc2by2 w r0 r1 g0 g1) as [s0 s1]. cbn [fst snd] in *.
  cbv zeta. split; [repeat apply W_upd; auto|]. split; [rewrite !upd_len; auto|].
  rewrite !V_upd by (rewrite ?upd_len; lia). rewrite !at_upd_other by lia. rewrite !I3 by lia.
  replace (2 * n - 3)%nat with col by lia. replace (2 * n - 2)%nat with (S col) by lia. replace (2 * n - 1)%nat with (S (S col)) by lia. rewrite !P_S.
  transitivity (V R + P col * c3 + B * P col * (s0 + B * s1)); [ring|]. rewrite G3. ring.
Qed.
Lemma squ_2_ok : squ_ok 2 squ_2 = true. Proof. vm_compute. reflexivity. Qed.
Lemma squ_4_ok : squ_ok 4 squ_4 = true. Proof. vm_compute. reflexivity. Qed.
Lemma squ_8_ok : squ_ok 8 squ_8 = true. Proof. vm_compute. reflexivity. Qed.
Lemma squ_16_ok : squ_ok 16 squ_16 = true. Proof. vm_compute. reflexivity. Qed.
End Mul.
