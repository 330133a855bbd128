(** Cutting a list into blocks of a fixed size; lemmas about writing into buffers. *)
From Coq Require Import ZArith List Lia Bool Arith.
From Verif Require Import Base.
Import ListNotations.
Local Open Scope nat_scope.

(** The first [k] blocks of [n] elements. *)
Fixpoint blocksn {A} (n k : nat) (l : list A) : list (list A) :=
  match k with
  | O => []
  | S k' => firstn n l :: blocksn n k' (skipn n l)
  end.
(** All complete blocks, and what is left. *)
Definition blocks {A} (n : nat) (l : list A) : list (list A) := blocksn n (length l / n) l.
Definition rest {A} (n : nat) (l : list A) : list A := skipn (n * (length l / n)) l.

(** memcpy of [d] to offset [o] of [buf]. *)
Definition write {A} (o : nat) (d buf : list A) : list A := firstn o buf ++ d ++ skipn (o + length d) buf.

Section Lemmas.
  Context {A : Type}.
  Implicit Types l d buf : list A.

  Lemma rest_length : forall n l, n <> 0 -> length (rest n l) = length l mod n.
  Proof. intros. unfold rest. rewrite skipn_length. pose proof (Nat.div_mod (length l) n H). lia. Qed.

  Lemma rest_lt : forall n l, n <> 0 -> length (rest n l) < n.
  Proof. intros. rewrite rest_length by auto. apply Nat.mod_upper_bound; auto. Qed.

  Lemma blocks_nil : forall n, n <> 0 -> blocks n (@nil A) = [].
  Proof. intros. unfold blocks. cbn [length]. rewrite Nat.div_0_l by auto. reflexivity. Qed.
  Lemma rest_nil : forall n, n <> 0 -> rest n (@nil A) = [].
  Proof. intros. unfold rest. apply skipn_nil. Qed.

  Lemma blocks_small : forall n l, length l < n -> blocks n l = [].
  Proof. intros. unfold blocks. rewrite Nat.div_small by auto. reflexivity. Qed.
  Lemma rest_small : forall n l, length l < n -> rest n l = l.
  Proof. intros. unfold rest. rewrite Nat.div_small, Nat.mul_0_r by auto. reflexivity. Qed.

  Lemma div_minus : forall a n, n <> 0 -> n <= a -> a / n = S ((a - n) / n).
  Proof. intros. replace a with ((a - n) + 1 * n) at 1 by lia. rewrite Nat.div_add by auto. lia. Qed.
  Lemma mod_minus : forall a n, n <> 0 -> n <= a -> a mod n = (a - n) mod n.
  Proof. intros. replace a with ((a - n) + 1 * n) at 1 by lia. rewrite Nat.mod_add by auto. reflexivity. Qed.

  Lemma blocks_cons : forall n l, n <> 0 -> n <= length l ->
    blocks n l = firstn n l :: blocks n (skipn n l).
  Proof. intros. unfold blocks. rewrite div_minus by auto. cbn [blocksn]. rewrite skipn_length. reflexivity. Qed.
  Lemma rest_cons : forall n l, n <> 0 -> n <= length l -> rest n l = rest n (skipn n l).
  Proof.
    intros. unfold rest. rewrite div_minus, skipn_length, skipn_skipn_add by auto. f_equal. lia.
  Qed.

  Lemma blocks_app_block : forall n b l, n <> 0 -> length b = n -> blocks n (b ++ l) = b :: blocks n l.
  Proof.
    intros n b l Hn Hb. rewrite blocks_cons by (try rewrite app_length; lia). subst n.
    rewrite firstn_app_exact, skipn_app_exact. reflexivity.
  Qed.
  Lemma rest_app_block : forall n b l, n <> 0 -> length b = n -> rest n (b ++ l) = rest n l.
  Proof.
    intros n b l Hn Hb. rewrite rest_cons by (try rewrite app_length; lia). subst n. rewrite skipn_app_exact. reflexivity.
  Qed.

  (** Induction over complete blocks. *)
  Lemma block_ind : forall n (P : list A -> Prop), n <> 0 ->
    (forall l, length l < n -> P l) -> (forall b l, length b = n -> P l -> P (b ++ l)) -> forall l, P l.
  Proof.
    intros n P Hn H0 H1 l. remember (length l) as k eqn:E. revert l E.
    induction k as [k IH] using lt_wf_ind. intros l E.
    destruct (Nat.lt_ge_cases (length l) n); auto.
    rewrite <- (firstn_skipn n l). apply H1. rewrite firstn_length; lia.
    apply (IH (length (skipn n l))); auto. rewrite skipn_length. lia.
  Qed.

  Lemma blocks_rest : forall n l, n <> 0 -> l = concat (blocks n l) ++ rest n l.
  Proof.
    intros n l Hn. pattern l; apply (block_ind n _ Hn); clear l; [intros l H|intros b0 l H IHl].
    - rewrite blocks_small, rest_small by auto. reflexivity.
    - rewrite blocks_app_block, rest_app_block by auto. cbn [concat]. rewrite <- app_assoc. f_equal. auto.
  Qed.
  Lemma blocks_forall : forall n l, n <> 0 -> Forall (fun b => length b = n) (blocks n l).
  Proof.
    intros n l Hn. pattern l; apply (block_ind n _ Hn); clear l; [intros l H|intros b0 l H IHl].
    - rewrite blocks_small by auto. constructor.
    - rewrite blocks_app_block by auto. constructor; auto.
  Qed.
  Lemma blocks_count : forall n l, n <> 0 -> length (blocks n l) = length l / n.
  Proof.
    intros n l Hn. pattern l; apply (block_ind n _ Hn); clear l; [intros l H|intros b0 l H IHl].
    - rewrite blocks_small, Nat.div_small by auto. reflexivity.
    - rewrite blocks_app_block by auto. rewrite app_length, H.
      rewrite (div_minus (n + length l)) by lia. cbn [length]. rewrite IHl. repeat f_equal. lia.
  Qed.

  (** Adding data: only the last incomplete block matters. *)
  Lemma blocks_app : forall n (a b : list A), n <> 0 -> blocks n (a ++ b) = blocks n a ++ blocks n (rest n a ++ b).
  Proof.
    intros n a b Hn. pattern a; apply (block_ind n _ Hn); clear a; [intros a H|intros b0 a H IHa].
    - rewrite (blocks_small n a), rest_small by auto. reflexivity.
    - rewrite <- app_assoc. rewrite (blocks_app_block n b0 (a ++ b)), (blocks_app_block n b0 a), rest_app_block, IHa by auto. reflexivity.
  Qed.
  Lemma rest_app : forall n (a b : list A), n <> 0 -> rest n (a ++ b) = rest n (rest n a ++ b).
  Proof.
    intros n a b Hn. pattern a; apply (block_ind n _ Hn); clear a; [intros a H|intros b0 a H IHa].
    - rewrite (rest_small n a) by auto. reflexivity.
    - rewrite <- app_assoc. rewrite (rest_app_block n b0 (a ++ b)), (rest_app_block n b0 a), IHa by auto. reflexivity.
  Qed.
  Lemma blocks_app_mult : forall n (a b : list A), n <> 0 -> length a mod n = 0 -> blocks n (a ++ b) = blocks n a ++ blocks n b.
  Proof.
    intros. rewrite blocks_app by auto. assert (rest n a = []).
    { pose proof (rest_length n a H). rewrite H0 in H1. destruct (rest n a); auto. discriminate. }
    rewrite H1. reflexivity.
  Qed.
  Lemma rest_mult : forall n (a : list A), n <> 0 -> length a mod n = 0 -> rest n a = [].
  Proof.
    intros. pose proof (rest_length n a H). rewrite H0 in H1. destruct (rest n a); auto. discriminate.
  Qed.
  Lemma blocks_concat : forall n (bs : list (list A)), n <> 0 -> Forall (fun b => length b = n) bs -> blocks n (concat bs) = bs.
  Proof.
    intros n bs Hn H. induction H; cbn [concat].
    - apply blocks_nil; auto.
    - rewrite blocks_app_block by auto. congruence.
  Qed.
  Lemma length_concat_blocks : forall n (bs : list (list A)), Forall (fun b => length b = n) bs -> length (concat bs) = n * length bs.
  Proof.
    intros n bs H. induction H; cbn [concat length]. lia. rewrite app_length, H, IHForall. lia.
  Qed.

  Lemma write_length : forall o d buf, o + length d <= length buf -> length (write o d buf) = length buf.
  Proof. intros. unfold write. rewrite !app_length, firstn_length, skipn_length. lia. Qed.
  Lemma write_firstn : forall o d buf, o + length d <= length buf -> firstn (o + length d) (write o d buf) = firstn o buf ++ d.
  Proof.
    intros. unfold write. rewrite app_assoc. 
    replace (o + length d) with (length (firstn o buf ++ d)) by (rewrite app_length, firstn_length; lia).
    apply firstn_app_exact.
  Qed.
  Lemma write_all : forall o d buf, o + length d = length buf -> write o d buf = firstn o buf ++ d.
  Proof. intros. unfold write. rewrite skipn_all2 by lia. rewrite app_nil_r. reflexivity. Qed.
  Lemma write_nil : forall o buf, o <= length buf -> write o [] buf = buf.
  Proof. intros. unfold write. cbn [length app]. rewrite Nat.add_0_r. apply firstn_skipn. Qed.
  Lemma write_0 : forall d buf, length d = length buf -> write 0 d buf = d.
  Proof. intros. rewrite write_all by auto. reflexivity. Qed.
  Lemma write_firstn_le : forall o d buf n, n <= o -> o <= length buf -> firstn n (write o d buf) = firstn n buf.
  Proof.
    intros. unfold write. rewrite firstn_app_le by (rewrite firstn_length; lia). rewrite firstn_firstn. f_equal. lia.
  Qed.
  Lemma write_skipn : forall o d buf n, o + length d <= n -> o + length d <= length buf -> skipn n (write o d buf) = skipn n buf.
  Proof.
    intros. unfold write. rewrite skipn_app_ge by (rewrite firstn_length; lia). rewrite firstn_length.
    rewrite skipn_app_ge by lia. rewrite skipn_skipn_add. f_equal. lia.
  Qed.
End Lemmas.

(** Modulo of a sum, as used by block counters. *)
Lemma mod_add_small : forall a b n, n <> 0 -> a mod n + b < n -> (a + b) mod n = a mod n + b.
Proof.
  intros. rewrite <- (Nat.add_mod_idemp_l a b n) by auto. apply Nat.mod_small; auto.
Qed.

Global Arguments blocks {A} n l : simpl never.
Global Arguments rest {A} n l : simpl never.
Global Arguments write {A} o d buf : simpl never.
