(** Byte memory: a total map from addresses to bytes; loading and storing byte strings. *)
From Coq Require Import ZArith List Lia Bool Arith.
From Verif Require Import Base.
Import ListNotations.
Local Open Scope Z_scope.

Definition mem := Z -> Z.
(** The [n] bytes at address [a]. *)
Definition load (m : mem) (a : Z) (n : nat) : list Z := map (fun i => m (a + Z.of_nat i)) (seq 0 n).
(** memcpy of [l] to address [a]. *)
Definition store (m : mem) (a : Z) (l : list Z) : mem :=
  fun x => if (a <=? x) && (x <? a + Z.of_nat (length l)) then nth (Z.to_nat (x - a)) l 0 else m x.
(** Nothing outside the [n] bytes at [a] differs. *)
Definition same_outside (m m' : mem) (a : Z) (n : nat) : Prop := forall x, x < a \/ a + Z.of_nat n <= x -> m' x = m x.
(** The condition ProcessData documents: in place, or not overlapping. *)
Definition regions_ok (i o : Z) (n : nat) : Prop := i = o \/ i + Z.of_nat n <= o \/ o + Z.of_nat n <= i.
Definition disjoint (a : Z) (n : nat) (b : Z) (k : nat) : Prop := a + Z.of_nat n <= b \/ b + Z.of_nat k <= a.
Definition mem_ok (m : mem) : Prop := forall x, byte (m x).

Lemma load_length : forall m a n, length (load m a n) = n.
Proof. intros. unfold load. rewrite map_length, seq_length. reflexivity. Qed.
Lemma load_nth : forall m a n i d, (i < n)%nat -> nth i (load m a n) d = m (a + Z.of_nat i).
Proof.
  intros. unfold load. rewrite (nth_indep _ d (m (a + Z.of_nat 0))) by (rewrite map_length, seq_length; auto).
  rewrite (map_nth (fun i => m (a + Z.of_nat i))), seq_nth by auto. reflexivity.
Qed.
Lemma load_app : forall m a n k, load m a (n + k) = load m a n ++ load m (a + Z.of_nat n) k.
Proof.
  intros. apply nth_ext with 0 0; [rewrite app_length, !load_length; reflexivity|]. intros i Hi. rewrite load_length in Hi.
  rewrite load_nth by auto. destruct (Nat.ltb_spec i n).
  - rewrite app_nth1, load_nth by (rewrite ?load_length; auto). reflexivity.
  - rewrite app_nth2, load_length, load_nth by (rewrite ?load_length; lia). f_equal. lia.
Qed.
Lemma load_ext : forall m m' a n, (forall x, a <= x < a + Z.of_nat n -> m' x = m x) -> load m' a n = load m a n.
Proof. intros. unfold load. apply map_ext_in. intros i Hi. apply in_seq in Hi. apply H. lia. Qed.
Lemma load_store_same : forall m a l n, n = length l -> load (store m a l) a n = l.
Proof.
  intros m a l n ->. apply nth_ext with 0 0; [apply load_length|]. intros i Hi. rewrite load_length in Hi. rewrite load_nth by auto.
  unfold store. rewrite (proj2 (Z.leb_le _ _)), (proj2 (Z.ltb_lt _ _)) by lia. cbn [andb]. f_equal. lia.
Qed.
Lemma store_outside : forall m a l x, x < a \/ a + Z.of_nat (length l) <= x -> store m a l x = m x.
Proof. intros. unfold store. destruct (Z.leb_spec a x), (Z.ltb_spec x (a + Z.of_nat (length l))); cbn [andb]; auto; lia. Qed.
Lemma load_store_disjoint : forall m a l b n, disjoint a (length l) b n -> load (store m a l) b n = load m b n.
Proof. intros. apply load_ext. intros. apply store_outside. destruct H; lia. Qed.
Lemma store_nil : forall m a x, store m a [] x = m x.
Proof. intros. apply store_outside. cbn. lia. Qed.
Lemma store_same_outside : forall m a l, same_outside m (store m a l) a (length l).
Proof. intros m a l x H. apply store_outside; auto. Qed.
Lemma store_same_outside' : forall m a l n, n = length l -> same_outside m (store m a l) a n.
Proof. intros; subst; apply store_same_outside. Qed.
Lemma same_refl : forall m a n, same_outside m m a n.
Proof. intros m a n x _. reflexivity. Qed.
Lemma same_trans : forall m1 m2 m3 a n, same_outside m1 m2 a n -> same_outside m2 m3 a n -> same_outside m1 m3 a n.
Proof. intros m1 m2 m3 a n H1 H2 x Hx. rewrite H2, H1; auto. Qed.
Lemma same_weaken : forall m1 m2 a n a' n', same_outside m1 m2 a n -> a' <= a -> a + Z.of_nat n <= a' + Z.of_nat n' -> same_outside m1 m2 a' n'.
Proof. intros m1 m2 a n a' n' H H1 H2 x Hx. apply H. lia. Qed.
Lemma load_same : forall m m' a n b k, same_outside m m' a n -> disjoint a n b k -> load m' b k = load m b k.
Proof. intros m m' a n b k H Hd. apply load_ext. intros x Hx. apply H. destruct Hd; lia. Qed.
Lemma load_bytes : forall m a n, mem_ok m -> bytes (load m a n).
Proof. intros. apply Forall_map. apply Forall_forall. intros; apply H. Qed.
Lemma store_ok : forall m a l, mem_ok m -> bytes l -> mem_ok (store m a l).
Proof.
  intros m a l Hm Hl x. unfold store. destruct ((a <=? x) && (x <? a + Z.of_nat (length l))) eqn:E; auto.
  apply andb_prop in E. destruct E as [E1 E2]. apply Z.leb_le in E1. apply Z.ltb_lt in E2.
  assert (F : Forall byte l) by exact Hl. rewrite Forall_forall in F. apply F. apply nth_In. lia.
Qed.
Lemma load_0 : forall m a, load m a 0 = [].
Proof. reflexivity. Qed.
Lemma load_firstn : forall m a n k, (k <= n)%nat -> firstn k (load m a n) = load m a k.
Proof. intros. replace n with (k + (n - k))%nat by lia. rewrite load_app, firstn_app_le, firstn_all2 by (rewrite load_length; lia). reflexivity. Qed.
Lemma load_skipn : forall m a n k, (k <= n)%nat -> skipn k (load m a n) = load m (a + Z.of_nat k) (n - k).
Proof.
  intros. replace n with (k + (n - k))%nat at 1 by lia. rewrite load_app, skipn_app_ge by (rewrite load_length; lia).
  rewrite load_length, Nat.sub_diag. reflexivity.
Qed.
