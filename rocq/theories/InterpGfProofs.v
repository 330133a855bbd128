From Coq Require Import ZArith List Bool Arith Lia Field Eqdep_dec.
From Verif Require Import Gf2Spec Gf2Proofs Gf32Model Gf32Proofs Gf32FieldProofs Gf32InvProofs Gf32Properties InterpModel InterpSpec InterpProofs.
Import ListNotations.

(* ------------------------------------------------------------ images under a homomorphism *)
Section Hom.
  Variables F G : Type.
  Variables (zf onef : F) (addf subf mulf : F -> F -> F) (invf : F -> F).
  Variables (zg oneg : G) (addg subg mulg : G -> G -> G) (invg : G -> G).
  Variable h : F -> G.
  Hypothesis H0 : h zf = zg.
  Hypothesis H1 : h onef = oneg.
  Hypothesis Ha : forall a b, h (addf a b) = addg (h a) (h b).
  Hypothesis Hs : forall a b, h (subf a b) = subg (h a) (h b).
  Hypothesis Hm : forall a b, h (mulf a b) = mulg (h a) (h b).
  Hypothesis Hi : forall a, h (invf a) = invg (h a).
  Lemma at_hom : forall l i, at_ G zg (map h l) i = h (at_ F zf l i). Proof. intros. unfold at_. rewrite <- H0. apply map_nth. Qed.
  Lemma put_hom : forall l i v, put_ G (map h l) i (h v) = map h (put_ F l i v). Proof. induction l as [|a l IH]; intros [|i] v; cbn; auto. f_equal. apply IH. Qed.
  Lemma fold_hom : forall (A : Type) (f : F -> A -> F) (g : G -> A -> G) l a, (forall x i, h (f x i) = g (h x) i) -> fold_left g l (h a) = h (fold_left f l a).
  Proof. induction l as [|i l IH]; intros a H; cbn; [reflexivity|]. rewrite <- H. apply IH. auto. Qed.
  Lemma prep_w_hom : forall x n, prep_w G zg oneg subg mulg invg (map h x) n = map h (prep_w F zf onef subf mulf invf x n).
  Proof.
    intros x n. unfold prep_w. rewrite map_map. apply map_ext. intros i. rewrite Hi. f_equal. rewrite <- H1. apply fold_hom. intros t j. rewrite !at_hom. destruct (Nat.eqb i j); [reflexivity|]. rewrite Hm, Hs. reflexivity.
  Qed.
  Lemma prep_up_hom : forall k a, prep_up G zg mulg k (map h a) = map h (prep_up F zf mulf k a).
  Proof. induction k as [|k IH]; intros a; cbn [prep_up]; [reflexivity|]. rewrite !at_hom, <- Hm, put_hom. apply IH. Qed.
  Lemma down1_hom : forall a i, prep_down1 G zg mulg (map h a) i = map h (prep_down1 F zf mulf a i).
  Proof. intros a i. unfold prep_down1. cbv zeta. rewrite !at_hom, !put_hom, !at_hom, <- Hm, put_hom, !at_hom, <- Hm, put_hom. reflexivity. Qed.
  Lemma prep_at_hom : forall pos x w n, prep_at G zg oneg subg mulg (h pos) (map h x) (map h w) n = map h (prep_at F zf onef subf mulf pos x w n).
  Proof.
    intros pos x w n. unfold prep_at. cbv zeta.
    assert (L : prep_leaves G zg subg (h pos) (map h x) n = map h (prep_leaves F zf subf pos x n)).
    { unfold prep_leaves. rewrite map_app, map_map. f_equal; [rewrite <- H0; induction (n - 1)%nat as [|k IH]; cbn; f_equal; auto|]. apply map_ext. intros i. rewrite at_hom, Hs. reflexivity. }
    rewrite L, prep_up_hom, <- H1, put_hom. set (A := put_ F _ 0 onef).
    assert (FL : forall l a, fold_left (prep_down1 G zg mulg) l (map h a) = map h (fold_left (prep_down1 F zf mulf) l a)) by (induction l as [|i l IH]; intros a; cbn; [reflexivity|]; rewrite down1_hom; apply IH).
    rewrite FL, map_map. apply map_ext. intros i. rewrite !at_hom, Hm. reflexivity.
  Qed.
  Lemma bulk_at_hom : forall y v n, bulk_at G zg addg mulg (map h y) (map h v) n = h (bulk_at F zf addf mulf y v n).
  Proof. intros y v n. unfold bulk_at. rewrite <- H0 at 1. apply fold_hom. intros x i. rewrite Ha, Hm, !at_hom. reflexivity. Qed.
  Lemma peval_hom : forall c x, peval zg addg mulg (map h c) (h x) = h (peval zf addf mulf c x).
  Proof. induction c as [|a c IH]; intros x; cbn; [auto|]. rewrite IH, Ha, Hm. reflexivity. Qed.
End Hom.

(* ------------------------------------------------------------ the field as a type *)
Definition wordb (a : Z) : bool := ((0 <=? a) && (a <? 2 ^ 32))%Z.
Lemma wordb_word : forall a, wordb a = true <-> word a. Proof. intros. unfold wordb, word. rewrite andb_true_iff, Z.leb_le, Z.ltb_lt. tauto. Qed.
Definition GF : Type := {a : Z | wordb a = true}.
Definition gv (a : GF) : Z := proj1_sig a.
Lemma gv_word : forall a, word (gv a). Proof. intros [a H]. apply wordb_word. exact H. Qed.
Definition mk (a : Z) (H : word a) : GF := exist _ a (proj2 (wordb_word a) H).
Lemma gv_inj : forall a b, gv a = gv b -> a = b.
Proof. intros [a H] [b K] E. cbn in E. subst b. f_equal. apply UIP_dec. apply Bool.bool_dec. Qed.
Lemma word_0 : word 0. Proof. unfold word. rewrite W32. lia. Qed.
Lemma inverse_word : forall a, word a -> word (gf_inverse a) /\ (a <> 0%Z -> gf_mul gf_modulus (gf_inverse a) a = 1%Z).
Proof.
  intros a Ha. destruct (Z.eq_dec a 0) as [->|N]; [split; [exact word_0|congruence]|]. unfold gf_inverse. unfold word in Ha. destruct (C56_inverse a) as (v & -> & V2 & V3 & _); [lia|].
  assert (Wv : word v) by (unfold word; lia). split; [exact Wv|]. intros _. change gf_modulus with 141%Z in *. rewrite (mul_comm 141 H141); auto.
Qed.
Definition g0 : GF := mk 0 word_0.
Definition g1 : GF := mk 1 word_1.
Definition gadd (a b : GF) : GF := mk (gf_add (gv a) (gv b)) (word_add _ _ (gv_word a) (gv_word b)).
Definition gmul (a b : GF) : GF := mk (gf_mul gf_modulus (gv a) (gv b)) (mul_word 141 H141 _ _ (gv_word a) (gv_word b)).
Definition ginv (a : GF) : GF := mk (gf_inverse (gv a)) (proj1 (inverse_word _ (gv_word a))).
Definition gopp (a : GF) : GF := a.
Definition gdiv (a b : GF) : GF := gmul a (ginv b).
Lemma GF_field : field_theory g0 g1 gadd gmul gadd gopp gdiv ginv (@eq GF).
Proof.
  pose proof H141 as HM. constructor; [constructor| | |]; intros; try apply gv_inj; unfold gadd, gmul, gopp, ginv, gdiv, gf_add; cbn [gv proj1_sig mk g0 g1]; change gf_modulus with 141%Z in *;
    repeat match goal with a : GF |- _ => let W := fresh "W" in pose proof (gv_word a) as W; generalize dependent (gv a); clear a; intros a W end.
  - apply Z.lxor_0_l.
  - apply Z.lxor_comm.
  - rewrite Z.lxor_assoc. reflexivity.
  - apply mul_1_l; auto.
  - apply mul_comm; auto.
  - symmetry. apply mul_assoc; auto.
  - rewrite (mul_comm 141 HM), (mul_add 141 HM) by (auto; apply word_add; auto). rewrite (mul_comm 141 HM z x), (mul_comm 141 HM z y) by auto. reflexivity.
  - reflexivity.
  - apply Z.lxor_nilpotent.
  - intros E. apply (f_equal gv) in E. discriminate.
  - reflexivity.
  - apply inverse_word; [apply gv_word|]. intros E. apply H. apply gv_inj. exact E.
Qed.
Lemma lift_list : forall l, Forall word l -> exists L, map gv L = l.
Proof. induction 1 as [|a l Ha _ (L & IH)]; [exists []; reflexivity|]. exists (mk a Ha :: L). cbn. rewrite IH. reflexivity. Qed.
Lemma lift1 : forall a, word a -> exists p, gv p = a. Proof. intros a Ha. exists (mk a Ha). reflexivity. Qed.
Definition zat (l : list Z) (i : nat) : Z := nth i l 0%Z.
Lemma zat_map : forall L i, zat (map gv L) i = gv (at_ GF g0 L i). Proof. intros. unfold zat, at_. change 0%Z with (gv g0). apply map_nth. Qed.
Lemma gf_eval_map : forall c x, gf_eval (map gv c) (gv x) = gv (peval g0 gadd gmul c x).
Proof. intros. unfold gf_eval. apply (peval_hom GF Z g0 gadd gmul 0%Z gf_add (gf_mul gf_modulus) gv); reflexivity. Qed.

Theorem gf_bulk_interpolation : forall c pos x y n, (1 <= n)%nat -> (length c <= n)%nat -> Forall word c -> word pos -> length x = n -> length y = n -> Forall word x -> Forall word y ->
  NoDup x -> ~ In pos x -> (forall i, (i < n)%nat -> zat y i = gf_eval c (zat x i)) ->
  gf_bulk_at y (gf_prep_at pos x (gf_prep_w x n) n) n = gf_eval c pos.
Proof.
  intros c pos x y n Hn Lc Wc Wp Lx Ly Wx Wy ND NI HY. destruct (lift_list c Wc) as (C & <-). destruct (lift_list x Wx) as (X & <-). destruct (lift_list y Wy) as (Y & <-). destruct (lift1 pos Wp) as (p & <-).
  rewrite map_length in *. unfold gf_bulk_at, gf_prep_at, gf_prep_w.
  rewrite (prep_w_hom GF Z g0 g1 gadd gmul ginv 0%Z 1%Z gf_add (gf_mul gf_modulus) gf_inverse gv) by reflexivity.
  rewrite (prep_at_hom GF Z g0 g1 gadd gmul 0%Z 1%Z gf_add (gf_mul gf_modulus) gv) by reflexivity.
  rewrite (bulk_at_hom GF Z g0 gadd gmul 0%Z gf_add (gf_mul gf_modulus) gv) by reflexivity. rewrite gf_eval_map. f_equal.
  apply (bulk_interpolation GF g0 g1 gadd gadd gmul gopp ginv gdiv GF_field); auto.
  - intros i j Hi Hj Ne E. apply Ne. apply (proj1 (NoDup_nth (map gv X) 0%Z) ND); rewrite ?map_length; try lia. change (nth i (map gv X) 0%Z) with (zat (map gv X) i). change (nth j (map gv X) 0%Z) with (zat (map gv X) j). rewrite !zat_map, E. reflexivity.
  - intros j Hj E. apply NI. rewrite E, <- zat_map. apply nth_In. rewrite map_length. lia.
  - intros i Hi. apply gv_inj. rewrite <- gf_eval_map, <- !zat_map. apply HY. exact Hi.
Qed.
Theorem gf_interpolant_exists : forall x y n, (1 <= n)%nat -> length x = n -> length y = n -> Forall word x -> Forall word y -> NoDup x ->
  exists c, length c = n /\ Forall word c /\ forall i, (i < n)%nat -> gf_eval c (zat x i) = zat y i.
Proof.
  intros x y n Hn Lx Ly Wx Wy ND. destruct (lift_list x Wx) as (X & <-). destruct (lift_list y Wy) as (Y & <-). rewrite map_length in *.
  destruct (interpolant_exists GF g0 g1 gadd gadd gmul gopp ginv gdiv GF_field n (at_ GF g0 X) (at_ GF g0 Y) Hn) as (C & LC & HC).
  - intros i j Hi Hj Ne E. apply Ne. apply (proj1 (NoDup_nth (map gv X) 0%Z) ND); rewrite ?map_length; try lia. change (nth i (map gv X) 0%Z) with (zat (map gv X) i). change (nth j (map gv X) 0%Z) with (zat (map gv X) j). rewrite !zat_map, E. reflexivity.
  - exists (map gv C). rewrite map_length. split; [exact LC|]. split; [apply Forall_forall; intros a Ha; apply in_map_iff in Ha; destruct Ha as (b & <- & _); apply gv_word|].
    intros i Hi. rewrite !zat_map, gf_eval_map, HC by exact Hi. reflexivity.
Qed.
Theorem gf_interpolant_unique : forall n c d x z, (length c <= n)%nat -> (length d <= n)%nat -> Forall word c -> Forall word d -> length x = n -> Forall word x -> NoDup x -> word z ->
  (forall i, (i < n)%nat -> gf_eval c (zat x i) = gf_eval d (zat x i)) -> gf_eval c z = gf_eval d z.
Proof.
  intros n c d x z Lc Ld Wc Wd Lx Wx ND Wz H. destruct (lift_list c Wc) as (C & <-). destruct (lift_list d Wd) as (D & <-). destruct (lift_list x Wx) as (X & <-). destruct (lift1 z Wz) as (p & <-). rewrite map_length in *. rewrite !gf_eval_map. f_equal.
  apply (interpolant_unique GF g0 g1 gadd gadd gmul gopp ginv gdiv GF_field n C D (at_ GF g0 X)); auto.
  - intros i j Hi Hj Ne E. apply Ne. apply (proj1 (NoDup_nth (map gv X) 0%Z) ND); rewrite ?map_length; try lia. change (nth i (map gv X) 0%Z) with (zat (map gv X) i). change (nth j (map gv X) 0%Z) with (zat (map gv X) j). rewrite !zat_map, E. reflexivity.
  - intros i Hi. apply gv_inj. rewrite <- !gf_eval_map, <- zat_map. apply H. exact Hi.
Qed.
Lemma gf_eval_word : forall c x, Forall word c -> word x -> word (gf_eval c x).
Proof. intros c x Wc Wx. destruct (lift_list c Wc) as (C & <-). change x with (gv (mk x Wx)). rewrite gf_eval_map. apply gv_word. Qed.
