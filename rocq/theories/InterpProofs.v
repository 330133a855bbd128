From Coq Require Import List Arith Lia Field.
From Verif Require Import InterpModel InterpSpec.
Import ListNotations.

Section FieldProofs.
  Variable F : Type.
  Variables (zero one : F) (add sub mul : F -> F -> F) (opp inv : F -> F) (div : F -> F -> F).
  Hypothesis Fth : field_theory zero one add mul sub opp div inv (@eq F).
  Add Field Ffield : Fth.
  Local Notation "0" := zero. Local Notation "1" := one.
  Local Infix "+" := add. Local Infix "*" := mul. Local Infix "-" := sub.
  Local Notation at_ := (at_ F zero).
  Local Notation put_ := (put_ F).
  Local Notation ev := (peval zero add mul).

  Lemma one_neq_zero : 1 <> 0. Proof. apply (F_1_neq_0 Fth). Qed.
  Lemma mul_inv_r : forall a, a <> 0 -> a * inv a = 1. Proof. intros. field. auto. Qed.
  Lemma mul_integral : forall a b, a * b = 0 -> a <> 0 -> b = 0.
  Proof. intros a b E N. replace b with (inv a * (a * b)) by (field; auto). rewrite E. ring. Qed.
  Lemma sub_neq : forall a b, a <> b -> a - b <> 0.
  Proof. intros a b N E. apply N. replace a with ((a - b) + b) by ring. rewrite E. ring. Qed.

  (* ------------------------------------------------------------ polynomials *)
  Lemma ev_add : forall c d x, length c = length d -> ev (map (fun p => fst p + snd p) (combine c d)) x = ev c x + ev d x.
  Proof. induction c as [|a c IH]; intros [|b d] x L; cbn in L |- *; try discriminate; [ring|]. rewrite IH by lia. ring. Qed.
  Lemma ev_scale : forall k c x, ev (map (mul k) c) x = k * ev c x.
  Proof. induction c as [|a c IH]; intros x; cbn; [ring|]. rewrite IH. ring. Qed.
  Lemma ev_zeros : forall n x, ev (repeat 0 n) x = 0. Proof. induction n as [|n IH]; intros x; cbn; [reflexivity|]. rewrite IH. ring. Qed.
  Lemma ev_app : forall c n x, ev (c ++ repeat 0 n) x = ev c x.
  Proof. induction c as [|a c IH]; intros n x; cbn; [apply ev_zeros|]. rewrite IH. reflexivity. Qed.
  (** f is a polynomial function with n coefficients *)
  Definition Poly (n : nat) (f : F -> F) : Prop := exists c, length c = n /\ forall x, f x = ev c x.
  Lemma Poly_ext : forall n f g, (forall x, f x = g x) -> Poly n f -> Poly n g.
  Proof. intros n f g E (c & L & H). exists c. split; auto. intros. rewrite <- E. auto. Qed.
  Lemma Poly_zero : forall n, Poly n (fun _ => 0). Proof. intros n. exists (repeat 0 n). split; [apply repeat_length|]. intros. rewrite ev_zeros. reflexivity. Qed.
  Lemma Poly_add : forall n f g, Poly n f -> Poly n g -> Poly n (fun x => f x + g x).
  Proof.
    intros n f g (c & L & H) (d & M & K). exists (map (fun p => fst p + snd p) (combine c d)). split; [rewrite map_length, combine_length; lia|]. intros x. rewrite ev_add, H, K by lia. reflexivity.
  Qed.
  Lemma Poly_scale : forall n k f, Poly n f -> Poly n (fun x => k * f x).
  Proof. intros n k f (c & L & H). exists (map (mul k) c). rewrite map_length. split; auto. intros x. rewrite ev_scale, H. reflexivity. Qed.
  Lemma Poly_const : forall k, Poly 1 (fun _ => k). Proof. intros k. exists [k]. split; [reflexivity|]. intros. cbn. ring. Qed.
  Lemma Poly_S : forall n f, Poly n f -> Poly (S n) f.
  Proof. intros n f (c & L & H). exists (c ++ repeat 0 1). split; [rewrite app_length, repeat_length; lia|]. intros. rewrite ev_app. apply H. Qed.
  Lemma Poly_x : forall n f, Poly n f -> Poly (S n) (fun x => x * f x).
  Proof. intros n f (c & L & H). exists (0 :: c). split; [cbn; lia|]. intros x. cbn. rewrite H. ring. Qed.
  Lemma Poly_linear : forall n r f, Poly n f -> Poly (S n) (fun x => (x - r) * f x).
  Proof. intros n r f H. apply (Poly_ext _ (fun x => x * f x + (opp r) * f x)); [intros; ring|]. apply Poly_add; [apply Poly_x; auto|apply Poly_scale, Poly_S; auto]. Qed.
  Lemma ev_factor : forall c r, exists q, length q = pred (length c) /\ forall x, ev c x = (x - r) * ev q x + ev c r.
  Proof.
    induction c as [|a c IH]; intros r; [exists []; split; [reflexivity|]; intros; cbn; ring|]. destruct (IH r) as (q & L & H). destruct c as [|b c].
    - exists []. split; [reflexivity|]. intros x. cbn. ring.
    - exists (ev (b :: c) r :: q). split; [cbn [length] in *; lia|]. intros x. cbn [peval]. change (add b (mul x (ev c x))) with (ev (b :: c) x). change (add b (mul r (ev c r))) with (ev (b :: c) r). rewrite (H x). ring.
  Qed.
  Lemma roots_zero : forall n c (x : nat -> F), (length c <= n)%nat -> (forall i j, (i < j)%nat -> (j < n)%nat -> x i <> x j) -> (forall i, (i < n)%nat -> ev c (x i) = 0) -> forall z, ev c z = 0.
  Proof.
    induction n as [|n IH]; intros c x L D R z; [destruct c; [reflexivity|cbn in L; lia]|].
    destruct (ev_factor c (x n)) as (q & Lq & H). rewrite H, (R n ltac:(lia)). rewrite (IH q x); [ring|lia|intros; apply D; lia|].
    intros i Hi. assert (E : (x i - x n) * ev q (x i) = 0) by (pose proof (R i ltac:(lia)) as Q; rewrite H, (R n ltac:(lia)) in Q; transitivity ((x i - x n) * ev q (x i) + 0); [ring|exact Q]).
    apply (mul_integral _ _ E). apply sub_neq. apply D; lia.
  Qed.

  (* ------------------------------------------------------------ sums and products *)
  Definition prodl (f : nat -> F) (l : list nat) : F := fold_right (fun j t => f j * t) 1 l.
  Definition suml (f : nat -> F) (l : list nat) : F := fold_right (fun j t => f j + t) 0 l.
  Lemma prodl_nil : forall f, prodl f [] = 1. Proof. reflexivity. Qed.
  Lemma prodl_cons : forall f a l, prodl f (a :: l) = f a * prodl f l. Proof. reflexivity. Qed.
  Lemma suml_nil : forall f, suml f [] = 0. Proof. reflexivity. Qed.
  Lemma suml_cons : forall f a l, suml f (a :: l) = f a + suml f l. Proof. reflexivity. Qed.
  Lemma prodl_app : forall f l r, prodl f (l ++ r) = prodl f l * prodl f r.
  Proof. induction l as [|a l IH]; intros r; cbn [app]; rewrite ?prodl_nil, ?prodl_cons; [ring|]. rewrite IH. ring. Qed.
  Lemma prodl_ext : forall f g l, (forall j, In j l -> f j = g j) -> prodl f l = prodl g l.
  Proof. induction l as [|a l IH]; intros H; [reflexivity|]. rewrite !prodl_cons. rewrite IH by (intros; apply H; cbn; auto). rewrite H by (cbn; auto). reflexivity. Qed.
  Lemma prodl_nz : forall f l, (forall j, In j l -> f j <> 0) -> prodl f l <> 0.
  Proof. induction l as [|a l IH]; intros H; [apply one_neq_zero|]. rewrite prodl_cons. intros E. apply mul_integral in E; [|apply H; cbn; auto]. apply IH in E; auto. intros. apply H; cbn; auto. Qed.
  Lemma prodl_zero : forall f l j, In j l -> f j = 0 -> prodl f l = 0.
  Proof. induction l as [|a l IH]; intros j HI E; [destruct HI|]. destruct HI as [->|H]; rewrite prodl_cons; [rewrite E; ring|]. rewrite (IH j H E). ring. Qed.
  Lemma suml_ext : forall f g l, (forall j, In j l -> f j = g j) -> suml f l = suml g l.
  Proof. induction l as [|a l IH]; intros H; [reflexivity|]. rewrite !suml_cons. rewrite IH by (intros; apply H; cbn; auto). rewrite H by (cbn; auto). reflexivity. Qed.
  Lemma suml_one : forall f l i, NoDup l -> In i l -> (forall j, In j l -> j <> i -> f j = 0) -> suml f l = f i.
  Proof.
    induction l as [|a l IH]; intros i ND HI Z; [destruct HI|]. apply NoDup_cons_iff in ND. destruct ND as [N1 N2]. destruct HI as [E|H]; subst.
    - rewrite suml_cons. rewrite (suml_ext f (fun _ => 0) l); [clear - Fth; assert (S : suml (fun _ => 0) l = 0) by (induction l as [|b l IH2]; [reflexivity|]; rewrite suml_cons, IH2; ring); rewrite S; ring|].
      intros j Hj. apply Z; [cbn; auto|]. intros ->. auto.
    - rewrite suml_cons. rewrite (IH i); auto; [|intros; apply Z; cbn; auto]. rewrite (Z a); [ring|cbn; auto|]. intros ->. auto.
  Qed.
  Lemma fold_suml : forall f l r, fold_left (fun t i => t + f i) l r = r + suml f l.
  Proof. induction l as [|a l IH]; intros r; cbn [fold_left]; rewrite ?suml_nil, ?suml_cons; [ring|]. rewrite IH. ring. Qed.
  Definition others (i n : nat) : list nat := filter (fun j => negb (Nat.eqb i j)) (seq 0 n).
  Lemma others_in : forall i n j, In j (others i n) <-> (j < n)%nat /\ j <> i.
  Proof. intros. unfold others. rewrite filter_In, in_seq, Bool.negb_true_iff, Nat.eqb_neq. lia. Qed.
  Lemma fold_prodl : forall f i l t, fold_left (fun t j => if Nat.eqb i j then t else t * f j) l t = t * prodl f (filter (fun j => negb (Nat.eqb i j)) l).
  Proof. induction l as [|a l IH]; intros t; cbn [fold_left filter]; [rewrite prodl_nil; ring|]. rewrite IH. destruct (Nat.eqb i a); cbn [negb]; [reflexivity|]. rewrite prodl_cons. ring. Qed.
  Lemma filter_neq_id : forall i l, ~ In i l -> filter (fun j => negb (Nat.eqb i j)) l = l.
  Proof. induction l as [|a l IH]; intros N; cbn; [reflexivity|]. cbn in N. destruct (Nat.eqb_spec i a) as [->|Ne]; [tauto|]. cbn. rewrite IH by tauto. reflexivity. Qed.
  Lemma others_split : forall i n, (i < n)%nat -> others i n = seq 0 i ++ seq (S i) (n - S i).
  Proof.
    intros i n H. unfold others. replace n with (i + (1 + (n - S i)))%nat at 1 by lia. rewrite !seq_app, !filter_app. cbn [seq filter Nat.add]. rewrite Nat.eqb_refl. cbn [negb app].
    rewrite !filter_neq_id; [rewrite Nat.add_1_r; reflexivity|rewrite in_seq; lia|rewrite in_seq; lia].
  Qed.
  Lemma others_prod : forall f i n, (i < n)%nat -> prodl f (others i n) * f i = prodl f (seq 0 n).
  Proof.
    intros f i n H. rewrite others_split by auto. replace n with (i + (1 + (n - S i)))%nat at 2 by lia. rewrite !seq_app, !prodl_app. cbn [seq Nat.add]. rewrite Nat.add_1_r. change (prodl f [i]) with (f i * 1). ring.
  Qed.
  Lemma others_length : forall i n, (i < n)%nat -> length (others i n) = (n - 1)%nat.
  Proof. intros. rewrite others_split by auto. rewrite app_length, !seq_length. lia. Qed.

  (* ------------------------------------------------------------ Lagrange *)
  Definition lag (x : nat -> F) (n i : nat) (z : F) : F := prodl (fun j => z - x j) (others i n).
  Lemma Poly_prod : forall (x : nat -> F) l, Poly (S (length l)) (fun z => prodl (fun j => z - x j) l).
  Proof. induction l as [|a l IH]; [cbn; apply Poly_const|]. cbn [length]. apply (Poly_ext _ (fun z => (z - x a) * prodl (fun j => z - x j) l)); [reflexivity|]. apply Poly_linear. exact IH. Qed.
  Lemma Poly_sum : forall n (g : nat -> F -> F) l, (forall j, In j l -> Poly n (g j)) -> Poly n (fun z => suml (fun j => g j z) l).
  Proof. induction l as [|a l IH]; intros H; [apply Poly_zero|]. apply (Poly_ext _ (fun z => g a z + suml (fun j => g j z) l)); [reflexivity|]. apply Poly_add; [apply H; cbn; auto|apply IH; intros; apply H; cbn; auto]. Qed.
  Theorem lagrange : forall n c (x : nat -> F) z, (length c <= n)%nat -> (forall i j, (i < n)%nat -> (j < n)%nat -> i <> j -> x i <> x j) ->
    suml (fun i => ev c (x i) * (inv (lag x n i (x i)) * lag x n i z)) (seq 0 n) = ev c z.
  Proof.
    intros n c x z L D. destruct (Poly_sum n (fun i z => ev c (x i) * (inv (lag x n i (x i)) * lag x n i z)) (seq 0 n)) as (d & Ld & H).
    { intros i Hi. rewrite in_seq in Hi. apply (Poly_scale n (ev c (x i)) (fun z => inv (lag x n i (x i)) * lag x n i z)). apply (Poly_scale n (inv (lag x n i (x i))) (fun z => lag x n i z)).
      pose proof (Poly_prod x (others i n)) as P. rewrite others_length in P by lia. replace (S (n - 1)) with n in P by lia. exact P. }
    rewrite H. set (c' := c ++ repeat 0 (n - length c)). assert (Lc : length c' = n) by (unfold c'; rewrite app_length, repeat_length; lia).
    assert (Ec : forall y, ev c y = ev c' y) by (intros; unfold c'; rewrite ev_app; reflexivity). rewrite Ec.
    set (e := map (fun p => fst p + snd p) (combine d (map (mul (opp 1)) c'))).
    assert (Ee : forall y, ev e y = ev d y - ev c' y) by (intros y; unfold e; rewrite ev_add, ev_scale by (rewrite map_length; lia); ring).
    assert (Z : ev e z = 0).
    { apply (roots_zero n e x); [unfold e; rewrite map_length, combine_length; lia|intros; apply D; lia|]. intros i Hi. rewrite Ee, <- H, <- Ec.
      rewrite (suml_one _ _ i); [|apply seq_NoDup|apply in_seq; lia|].
      - assert (NZ : lag x n i (x i) <> 0). { apply prodl_nz. intros j Hj. rewrite others_in in Hj. apply sub_neq, D; lia. } field. exact NZ.
      - intros j Hj Ne. rewrite in_seq in Hj. unfold lag at 2. rewrite (prodl_zero _ _ i); [ring|apply others_in; lia|ring]. }
    rewrite Ee in Z. replace (ev d z) with ((ev d z - ev c' z) + ev c' z) by ring. rewrite Z. ring.
  Qed.

  (* ------------------------------------------------------------ arrays *)
  Lemma put_length : forall l i v, length (put_ l i v) = length l. Proof. induction l as [|a l IH]; intros [|i] v; cbn; auto. Qed.
  Lemma at_put : forall l i j v, (i < length l)%nat -> at_ (put_ l i v) j = if Nat.eqb i j then v else at_ l j.
  Proof. unfold InterpModel.at_. induction l as [|a l IH]; intros [|i] [|j] v H; cbn in *; try lia; auto. rewrite IH by lia. reflexivity. Qed.
  Lemma at_map_seq : forall (f : nat -> F) n i, (i < n)%nat -> at_ (map f (seq 0 n)) i = f i.
  Proof. intros f n i H. unfold InterpModel.at_. rewrite (nth_indep _ zero (f O)) by (rewrite map_length, seq_length; lia). rewrite map_nth, seq_nth by lia. reflexivity. Qed.
  Lemma at_leaves : forall pos x n i, (1 <= n)%nat -> (i < n)%nat -> at_ (prep_leaves F zero sub pos x n) (n - 1 + i) = pos - at_ x i.
  Proof. intros. unfold prep_leaves. unfold InterpModel.at_ at 1. rewrite app_nth2 by (rewrite repeat_length; lia). rewrite repeat_length. replace (n - 1 + i - (n - 1))%nat with i by lia. change (nth i ?l zero) with (at_ l i). apply at_map_seq. auto. Qed.
  Lemma prep_up_length : forall k a, length (prep_up F zero mul k a) = length a. Proof. induction k as [|k IH]; intros a; cbn [prep_up]; [reflexivity|]. rewrite IH, put_length. reflexivity. Qed.
  Lemma prep_up_spec : forall k a, (2 * k + 2 < length a)%nat ->
    let b := prep_up F zero mul k a in
    (forall j, (k < j)%nat \/ j = O -> at_ b j = at_ a j) /\ (forall j, (1 <= j <= k)%nat -> at_ b j = at_ b (2 * j + 1) * at_ b (2 * j + 2)).
  Proof.
    induction k as [|k IH]; intros a H; cbn [prep_up]; [split; [reflexivity|intros; lia]|]. set (a' := put_ a (S k) _). assert (La : length a' = length a) by apply put_length.
    destruct (IH a' ltac:(lia)) as [I1 I2]. cbv zeta in *. set (b := prep_up F zero mul k a') in *. split.
    - intros j Hj. rewrite I1 by lia. unfold a'. rewrite at_put by lia. destruct (Nat.eqb_spec (S k) j); [lia|reflexivity].
    - intros j Hj. destruct (Nat.eq_dec j (S k)) as [->|Ne]; [|apply I2; lia]. rewrite !I1 by lia. unfold a'. rewrite !at_put by lia.
      rewrite Nat.eqb_refl. destruct (Nat.eqb_spec (S k) (2 * S k + 1)); [lia|]. destruct (Nat.eqb_spec (S k) (2 * S k + 2)); [lia|].
      replace (2 * (S k + 1) - 1)%nat with (2 * S k + 1)%nat by lia. replace (2 * (S k + 1))%nat with (2 * S k + 2)%nat by lia. ring.
  Qed.
  Lemma down1_length : forall a i, length (prep_down1 F zero mul a i) = length a. Proof. intros. unfold prep_down1. cbv zeta. rewrite !put_length. reflexivity. Qed.
  Lemma down1_spec : forall a i j, (2 * i + 2 < length a)%nat -> at_ (prep_down1 F zero mul a i) j = if Nat.eqb j (2 * i + 1) then at_ a i * at_ a (2 * i + 2) else if Nat.eqb j (2 * i + 2) then at_ a i * at_ a (2 * i + 1) else at_ a j.
  Proof.
    intros a i j H. unfold prep_down1. cbv zeta.
    repeat rewrite at_put by (rewrite ?put_length; lia).
    repeat match goal with |- context [Nat.eqb ?x ?y] => destruct (Nat.eqb_spec x y); try lia end; try reflexivity; subst; try lia.
  Qed.
  Lemma downs_length : forall l a, length (fold_left (prep_down1 F zero mul) l a) = length a. Proof. induction l as [|i l IH]; intros a; cbn; [reflexivity|]. rewrite IH. apply down1_length. Qed.
  Lemma downs_spec : forall A P m, at_ A 0 = 1 -> (forall j, (1 <= j < m)%nat -> at_ A j = at_ A (2 * j + 1) * at_ A (2 * j + 2)) -> ((1 <= m)%nat -> P = at_ A 1 * at_ A 2) -> (2 * m < length A)%nat ->
    let B := fold_left (prep_down1 F zero mul) (seq 0 m) A in
    (forall j, (2 * m < j)%nat -> at_ B j = at_ A j) /\ (forall j, (1 <= j <= 2 * m)%nat -> at_ B j * at_ A j = P) /\ at_ B 0 = 1.
  Proof.
    intros A P m. induction m as [|m IH]; intros H0 HA HP HL; [cbn; split; [reflexivity|]; split; [intros; lia|exact H0]|].
    destruct IH as (I1 & I2 & I3); [exact H0|intros; apply HA; lia|intros; apply HP; lia|lia|]. cbv zeta in *. rewrite seq_S, fold_left_app. cbn [fold_left Nat.add]. set (B := fold_left _ (seq 0 m) A) in *.
    assert (LB : length B = length A) by apply downs_length. split; [|split].
    - intros j Hj. rewrite down1_spec by lia. destruct (Nat.eqb_spec j (2 * m + 1)); [lia|]. destruct (Nat.eqb_spec j (2 * m + 2)); [lia|]. apply I1. lia.
    - assert (Q : at_ B m * (at_ A (2 * m + 1) * at_ A (2 * m + 2)) = P).
      { destruct m as [|m']; [rewrite I3, (HP ltac:(lia)); cbn [Nat.mul Nat.add]; ring|]. rewrite <- (HA (S m')) by lia. apply I2. lia. }
      intros j Hj. rewrite down1_spec by lia. destruct (Nat.eqb_spec j (2 * m + 1)) as [->|N1]; [rewrite (I1 (2 * m + 2)%nat) by lia; rewrite <- Q; ring|]. destruct (Nat.eqb_spec j (2 * m + 2)) as [->|N2]; [rewrite (I1 (2 * m + 1)%nat) by lia; rewrite <- Q; ring|]. apply I2. lia.
    - rewrite down1_spec by lia. destruct (Nat.eqb_spec 0 (2 * m + 1)); [lia|]. destruct (Nat.eqb_spec 0 (2 * m + 2)); [lia|]. exact I3.
  Qed.
  Lemma frontier : forall A k, (1 <= k)%nat -> (forall j, (1 <= j < k)%nat -> at_ A j = at_ A (2 * j + 1) * at_ A (2 * j + 2)) -> prodl (at_ A) (seq k (S k)) = at_ A 1 * at_ A 2.
  Proof.
    intros A k. induction k as [|k IH]; intros Hk H; [lia|]. destruct (Nat.eq_dec k 0) as [->|N]; [cbn; ring|].
    rewrite <- IH by (intros; try apply H; lia). rewrite <- (cons_seq k k), prodl_cons. rewrite H by lia.
    replace (S (S k)) with (k + 2)%nat by lia. rewrite seq_app, prodl_app. replace (S k + k)%nat with (2 * k + 1)%nat by lia. change (seq (2 * k + 1) 2) with [(2 * k + 1)%nat; S (2 * k + 1)].
    replace (S (2 * k + 1)) with (2 * k + 2)%nat by lia. rewrite !prodl_cons, prodl_nil. ring.
  Qed.
  Lemma prodl_snoc : forall (f : nat -> F) l a, prodl f (l ++ [a]) = prodl f l * f a. Proof. intros. rewrite prodl_app, prodl_cons, prodl_nil. ring. Qed.
  Lemma prodl_shift : forall (f : nat -> F) k n, prodl f (seq k n) = prodl (fun i => f (k + i)%nat) (seq 0 n).
  Proof. intros f k n. induction n as [|n IH]; [reflexivity|]. rewrite !seq_S, !prodl_snoc, IH. reflexivity. Qed.
  Lemma leaves_length : forall pos x n, (1 <= n)%nat -> length (prep_leaves F zero sub pos x n) = (2 * n - 1)%nat.
  Proof. intros. unfold prep_leaves. rewrite app_length, repeat_length, map_length, seq_length. lia. Qed.
  Lemma prep_at_spec : forall pos x w n i, (1 <= n)%nat -> (i < n)%nat -> (forall j, (j < n)%nat -> pos <> at_ x j) ->
    at_ (prep_at F zero one sub mul pos x w n) i = lag (at_ x) n i pos * at_ w i.
  Proof.
    intros pos x w n i Hn Hi HP. unfold prep_at. cbv zeta. rewrite at_map_seq by auto. f_equal.
    assert (NZ : pos - at_ x i <> 0) by (apply sub_neq, HP; auto). destruct (Nat.eq_dec n 1) as [->|N1].
    - assert (i = 0)%nat by lia. subst. unfold lag, others. cbn. reflexivity.
    - set (L := prep_leaves F zero sub pos x n). assert (LL : length L = (2 * n - 1)%nat) by (apply leaves_length; lia).
      destruct (prep_up_spec (n - 2) L) as [U1 U2]; [lia|]. cbv zeta in *. set (U := prep_up F zero mul (n - 2) L) in *. assert (LU : length U = (2 * n - 1)%nat) by (unfold U; rewrite prep_up_length; exact LL).
      set (A := put_ U 0 1). assert (LA : length A = (2 * n - 1)%nat) by (unfold A; rewrite put_length; exact LU).
      assert (A0 : at_ A 0 = 1) by (unfold A; rewrite at_put by lia; reflexivity).
      assert (AU : forall j, (1 <= j)%nat -> at_ A j = at_ U j) by (intros j Hj; unfold A; rewrite at_put by lia; destruct (Nat.eqb_spec 0 j); [lia|reflexivity]).
      assert (AN : forall j, (1 <= j < n - 1)%nat -> at_ A j = at_ A (2 * j + 1) * at_ A (2 * j + 2)) by (intros j Hj; rewrite !AU by lia; apply U2; lia).
      assert (AL : forall j, (j < n)%nat -> at_ A (n - 1 + j) = pos - at_ x j) by (intros j Hj; rewrite AU by lia; rewrite U1 by lia; apply at_leaves; lia).
      destruct (downs_spec A (at_ A 1 * at_ A 2) (n - 1) A0 AN (fun _ => eq_refl) ltac:(lia)) as (_ & D & _). cbv zeta in D.
      specialize (D (n - 1 + i)%nat ltac:(lia)). rewrite AL in D by auto.
      assert (FR : at_ A 1 * at_ A 2 = prodl (fun j => pos - at_ x j) (seq 0 n)).
      { rewrite <- (frontier A (n - 1)) by (auto; lia). rewrite prodl_shift. replace (S (n - 1)) with n by lia. apply prodl_ext. intros j Hj. rewrite in_seq in Hj. apply AL. lia. }
      rewrite FR, <- (others_prod _ i n Hi) in D. fold (lag (at_ x) n i pos) in D. set (B := at_ (fold_left _ _ _) _) in *.
      replace B with ((B * (pos - at_ x i)) * inv (pos - at_ x i)) by (field; exact NZ). rewrite D. field. exact NZ.
  Qed.
  Lemma prep_w_spec : forall x n i, (i < n)%nat -> at_ (prep_w F zero one sub mul inv x n) i = inv (lag (at_ x) n i (at_ x i)).
  Proof. intros x n i Hi. unfold prep_w. rewrite at_map_seq by auto. f_equal. rewrite (fold_prodl (fun j => at_ x i - at_ x j)). unfold lag, others. ring. Qed.
  Theorem bulk_interpolation : forall c pos x y n, (1 <= n)%nat -> (length c <= n)%nat ->
    (forall i j, (i < n)%nat -> (j < n)%nat -> i <> j -> at_ x i <> at_ x j) -> (forall j, (j < n)%nat -> pos <> at_ x j) -> (forall i, (i < n)%nat -> at_ y i = ev c (at_ x i)) ->
    bulk_at F zero add mul y (prep_at F zero one sub mul pos x (prep_w F zero one sub mul inv x n) n) n = ev c pos.
  Proof.
    intros c pos x y n Hn Lc D HP HY. unfold bulk_at. rewrite (fold_suml (fun i => at_ y i * at_ (prep_at F zero one sub mul pos x (prep_w F zero one sub mul inv x n) n) i)).
    rewrite <- (lagrange n c (at_ x) pos Lc D). transitivity (suml (fun i => at_ y i * at_ (prep_at F zero one sub mul pos x (prep_w F zero one sub mul inv x n) n) i) (seq 0 n)); [ring|].
    apply suml_ext. intros i Hi. rewrite in_seq in Hi. rewrite prep_at_spec, prep_w_spec, HY by (auto; lia). ring.
  Qed.
  (** every n values at distinct points are those of a polynomial with n coefficients *)
  Theorem interpolant_exists : forall n (x y : nat -> F), (1 <= n)%nat -> (forall i j, (i < n)%nat -> (j < n)%nat -> i <> j -> x i <> x j) -> exists c, length c = n /\ forall i, (i < n)%nat -> ev c (x i) = y i.
  Proof.
    intros n x y Hn D. destruct (Poly_sum n (fun i z => y i * (inv (lag x n i (x i)) * lag x n i z)) (seq 0 n)) as (d & Ld & H).
    { intros i Hi. rewrite in_seq in Hi. apply (Poly_scale n (y i) (fun z => inv (lag x n i (x i)) * lag x n i z)). apply (Poly_scale n (inv (lag x n i (x i))) (fun z => lag x n i z)).
      pose proof (Poly_prod x (others i n)) as P. rewrite others_length in P by lia. replace (S (n - 1)) with n in P by lia. exact P. }
    exists d. split; [exact Ld|]. intros i Hi. rewrite <- H. rewrite (suml_one _ _ i); [|apply seq_NoDup|apply in_seq; lia|].
    - assert (NZ : lag x n i (x i) <> 0). { apply prodl_nz. intros j Hj. rewrite others_in in Hj. apply sub_neq, D; lia. } field. exact NZ.
    - intros j Hj Ne. rewrite in_seq in Hj. unfold lag at 2. rewrite (prodl_zero _ _ i); [ring|apply others_in; lia|ring].
  Qed.
  Theorem interpolant_unique : forall n c d (x : nat -> F), (length c <= n)%nat -> (length d <= n)%nat -> (forall i j, (i < n)%nat -> (j < n)%nat -> i <> j -> x i <> x j) -> (forall i, (i < n)%nat -> ev c (x i) = ev d (x i)) -> forall z, ev c z = ev d z.
  Proof.
    intros n c d x Lc Ld D H z. rewrite <- (lagrange n c x z Lc D), <- (lagrange n d x z Ld D). apply suml_ext. intros i Hi. rewrite in_seq in Hi. rewrite H by lia. reflexivity.
  Qed.
End FieldProofs.
