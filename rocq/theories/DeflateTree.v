(** DeflateTree: the lengths of GenerateCodeLengths make a complete code. *)
From Coq Require Import ZArith List Bool Arith Lia Permutation.
From Verif Require Import Base BitioModel HuffmanModel HuffmanSpec HuffmanCode DeflateModel.
Import ListNotations.
Open Scope nat_scope.

(** * The leaves *)
Lemma insert_leaf_perm : forall x l, Permutation (insert_leaf x l) (x :: l).
Proof.
  induction l as [|y l IH]; cbn [insert_leaf]; [reflexivity|].
  destruct (snd x <=? snd y)%Z; [reflexivity|]. rewrite IH. apply perm_swap.
Qed.

Lemma sort_leaves_perm : forall l, Permutation (sort_leaves l) l.
Proof.
  unfold sort_leaves. induction l as [|x l IH]; cbn [fold_right]; [reflexivity|].
  rewrite insert_leaf_perm, IH. reflexivity.
Qed.

Fixpoint ascending (l : list (nat * Z)) : Prop :=
  match l with
  | [] => True
  | x :: l => Forall (fun y => (snd x <= snd y)%Z) l /\ ascending l
  end.

Lemma insert_leaf_asc : forall x l, ascending l -> ascending (insert_leaf x l).
Proof.
  induction l as [|y l IH]; cbn [insert_leaf ascending]; intros H; [split; [constructor|exact I]|].
  destruct H as [Hy Hl]. destruct (Z.leb_spec (snd x) (snd y)).
  - split; [|split; assumption]. constructor; [assumption|].
    eapply Forall_impl; [|exact Hy]. cbn. intros; lia.
  - cbn [ascending]. split; [|apply IH; assumption].
    apply (Permutation_Forall (Permutation_sym (insert_leaf_perm x l))). constructor; [lia|assumption].
Qed.

Lemma sort_leaves_asc : forall l, ascending (sort_leaves l).
Proof. unfold sort_leaves. induction l as [|x l IH]; cbn [fold_right]; [exact I|apply insert_leaf_asc; assumption]. Qed.

Lemma tree_begin_split : forall l, ascending l ->
  Forall (fun p => (snd p <= 0)%Z) (firstn (tree_begin l) l)
  /\ Forall (fun p => (0 < snd p)%Z) (skipn (tree_begin l) l).
Proof.
  unfold tree_begin. induction l as [|x l IH]; cbn [filter ascending]; intros H; [split; constructor|].
  destruct H as [Hx Hl]. destruct (Z.leb_spec (snd x) 0).
  - cbn [length firstn skipn]. destruct (IH Hl) as [A B]. split; [constructor; assumption|assumption].
  - assert (E : filter (fun p => (snd p <=? 0)%Z) l = []).
    { clear IH Hl. induction l as [|y l IH]; [reflexivity|]. inversion Hx; subst. cbn [filter].
      destruct (Z.leb_spec (snd y) 0); [lia|]. apply IH. assumption. }
    rewrite E. cbn [length firstn skipn]. split; [constructor|].
    constructor; [assumption|]. eapply Forall_impl; [|exact Hx]. cbn. intros; lia.
Qed.

Lemma tree_begin_le : forall l, tree_begin l <= length l.
Proof. unfold tree_begin. induction l as [|x l IH]; cbn [filter length]; [lia|]. destruct (snd x <=? 0)%Z; cbn [length]; lia. Qed.

Lemma map_fst_combine : forall {A B} (a : list A) (b : list B), length a = length b -> map fst (combine a b) = a.
Proof. induction a as [|x a IH]; intros [|y b] H; cbn in *; try discriminate; [reflexivity|]. f_equal. apply IH. lia. Qed.

Lemma in_combine_seq : forall (l : list Z) a i v, In (i, v) (combine (seq a (length l)) l) ->
  a <= i < a + length l /\ nth (i - a) l 0%Z = v.
Proof.
  induction l as [|x l IH]; intros a i v H; cbn [length seq combine In] in H; [contradiction|].
  destruct H as [H|H].
  - injection H as <- <-. rewrite Nat.sub_diag. cbn [length nth]. split; [lia|reflexivity].
  - destruct (IH _ _ _ H) as [A B]. cbn [length]. split; [lia|].
    replace (i - a) with (S (i - S a)) by lia. exact B.
Qed.

Lemma in_combine_seq_2 : forall (l : list Z) a i, i < length l -> In (a + i, nth i l 0%Z) (combine (seq a (length l)) l).
Proof.
  induction l as [|x l IH]; intros a i H; cbn [length] in H; [lia|].
  destruct i; cbn [length seq combine nth In]; [left; f_equal; lia|right].
  replace (a + S i) with (S a + i) by lia. apply IH. lia.
Qed.

Section Leaves.
Variable counts : list Z.
Hypothesis Hnn : Forall (fun c => (0 <= c)%Z) counts.
Let n := length counts.
Let leaves := leaves_of counts.
Let tb := tree_begin leaves.

Lemma leaves_length : length leaves = n.
Proof.
  unfold leaves, leaves_of. rewrite (Permutation_length (sort_leaves_perm _)), combine_length, seq_length.
  unfold n. lia.
Qed.
Lemma tb_le : tb <= n.
Proof. unfold tb. rewrite <- leaves_length. apply tree_begin_le. Qed.

Lemma leaf_in : forall p, In p leaves -> fst p < n /\ nth (fst p) counts 0%Z = snd p.
Proof.
  intros [i v] H. apply (Permutation_in _ (sort_leaves_perm _)) in H. apply in_combine_seq in H.
  cbn [fst snd]. rewrite Nat.sub_0_r in H. unfold n. split; [lia|apply H].
Qed.
Lemma leaf_in_2 : forall i, i < n -> In (i, nth i counts 0%Z) leaves.
Proof.
  intros i H. apply (Permutation_in _ (Permutation_sym (sort_leaves_perm _))).
  apply (in_combine_seq_2 counts 0 i). exact H.
Qed.

Let symbols := skipn tb (map fst leaves).

Lemma symbols_length : length symbols = n - tb.
Proof. unfold symbols. rewrite skipn_length, map_length, leaves_length. reflexivity. Qed.

Lemma symbols_nodup : NoDup symbols.
Proof.
  unfold symbols. assert (H : NoDup (map fst leaves)).
  { apply (Permutation_NoDup (l := seq 0 n)); [|apply seq_NoDup].
    unfold leaves, leaves_of. apply Permutation_sym.
    rewrite <- (map_fst_combine (seq 0 n) counts) by (rewrite seq_length; reflexivity).
    apply Permutation_map. apply sort_leaves_perm. }
  rewrite <- (firstn_skipn tb (map fst leaves)) in H. clear -H.
  induction (firstn tb (map fst leaves)) as [|x l IH]; [exact H|]. inversion H; subst. auto.
Qed.

Lemma symbols_in : forall i, In i symbols <-> i < n /\ (0 < nth i counts 0)%Z.
Proof.
  intros i. destruct (tree_begin_split leaves (sort_leaves_asc _)) as [A B]. fold tb in A, B.
  unfold symbols. rewrite skipn_map. split.
  - intros H. apply in_map_iff in H. destruct H as [p [<- H]].
    rewrite Forall_forall in B. pose proof (B p H) as P.
    assert (I : In p leaves) by (rewrite <- (firstn_skipn tb leaves); apply in_or_app; right; exact H).
    destruct (leaf_in p I) as [L E]. rewrite E. lia.
  - intros [L P]. assert (I : In (i, nth i counts 0%Z) leaves) by (apply leaf_in_2; lia).
    rewrite <- (firstn_skipn tb leaves) in I. apply in_app_or in I. destruct I as [I|I].
    + rewrite Forall_forall in A. apply A in I. cbn [snd] in I. lia.
    + apply in_map_iff. exists (i, nth i counts 0%Z). split; [reflexivity|exact I].
Qed.

Lemma first_zero : 0 < tb -> nth 0 (map snd leaves) 0%Z = 0%Z.
Proof.
  intros H. destruct (tree_begin_split leaves (sort_leaves_asc _)) as [A _]. fold tb in A.
  pose proof leaves_length as L. pose proof tb_le. pose proof leaf_in as LI.
  destruct leaves as [|p l] eqn:E; [reflexivity|]. cbn [map nth].
  assert (I : In p (firstn tb (p :: l))) by (destruct tb; [lia|left; reflexivity]).
  rewrite Forall_forall in A. apply A in I.
  destruct (LI p (or_introl eq_refl)) as [Lp Ep]. rewrite Forall_forall in Hnn.
  assert (In (nth (fst p) counts 0%Z) counts) by (apply nth_In; exact Lp).
  apply Hnn in H1. lia.
Qed.
End Leaves.

(** * The tree *)
Definition ssum (f : nat -> Z) (a k : nat) : Z := zsum (map f (seq a k)).

Lemma ssum_S : forall f a k, ssum f a (S k) = (ssum f a k + f (a + k)%nat)%Z.
Proof.
  intros. unfold ssum. rewrite seq_S, map_app, zsum_app. cbn [map]. unfold zsum at 2. cbn [fold_right]. lia.
Qed.
Lemma ssum_ext : forall f g a k, (forall x, a <= x < a + k -> f x = g x) -> ssum f a k = ssum g a k.
Proof. intros. apply zsum_map_ext. intros x Hx. apply in_seq in Hx. apply H. lia. Qed.

Definition par (vals : list Z) (x : nat) : nat := Z.to_nat (nth x vals 0%Z).


Lemma pick_spec : forall n i vals ll li a ll' li',
  ll <= n -> li <= i -> 1 <= (n - ll) + (i - li) -> pick n i vals ll li = (a, ll', li') ->
  (a = li /\ li < i /\ ll' = ll /\ li' = S li) \/ (a = ll /\ ll < n /\ ll' = S ll /\ li' = li).
Proof.
  intros n i vals ll li a ll' li' H1 H2 H3 H. unfold pick in H.
  destruct (Nat.eqb_spec ll n); cbn [orb] in H.
  - injection H as <- <- <-. left. lia.
  - destruct (Nat.ltb_spec li i); cbn [andb] in H.
    + destruct (nth li vals 0 <? nth ll vals 0)%Z; injection H as <- <- <-; [left|right]; lia.
    + injection H as <- <- <-. right. lia.
Qed.

(** [c] children of node [i] are chosen. *)
Record binv (n tb i c : nat) (vals : list Z) (ll li : nat) : Prop := mkbinv
  { bi_len : c = 0 \/ i < length vals;
    bi_n : n <= i /\ i <= length vals;
    bi_ll : tb <= ll <= n; bi_li : n <= li <= i;
    bi_par : forall x, (tb <= x < ll \/ n <= x < li) -> n <= par vals x < i + Nat.min c 1 /\ x < par vals x;
    bi_sum : forall f, (ssum (fun x => f (par vals x)) tb (ll - tb) + ssum (fun x => f (par vals x)) n (li - n)
                        = 2 * ssum f n (i - n) + Z.of_nat c * f i)%Z }.

Lemma binv_pick : forall n tb i c vals ll li a ll' li' v,
  binv n tb i c vals ll li -> 1 <= (n - ll) + (i - li) -> i < length vals ->
  pick n i vals ll li = (a, ll', li') ->
  binv n tb i (S c) (upd a (Z.of_nat i) (upd i v vals)) ll' li'
  /\ (n - ll) + (i - li) = S ((n - ll') + (i - li')).
Proof.
  intros n tb i c vals ll li a ll' li' v [Hl Hn Hll Hli Hp Hs] H1 Hi Hpick.
  apply pick_spec in Hpick; [|lia|lia|exact H1].
  assert (Ha : a < i) by lia.
  assert (PA : par (upd a (Z.of_nat i) (upd i v vals)) a = i).
  { unfold par. rewrite upd_nth_eq by (rewrite upd_length; lia). lia. }
  assert (PO : forall x, x <> a -> x < i -> par (upd a (Z.of_nat i) (upd i v vals)) x = par vals x).
  { intros x X1 X2. unfold par. rewrite upd_nth_neq by lia. rewrite upd_nth_neq by lia. reflexivity. }
  split; [|lia]. constructor.
  - right. rewrite !upd_length. exact Hi.
  - rewrite !upd_length. lia.
  - lia.
  - lia.
  - intros x Hx. destruct (Nat.eq_dec x a) as [->|N]; [rewrite PA; lia|].
    rewrite PO by lia. assert (X : tb <= x < ll \/ n <= x < li) by lia. specialize (Hp x X). lia.
  - intros f. specialize (Hs f).
    destruct Hpick as [[E [E1 [E2 E3]]]|[E [E1 [E2 E3]]]]; subst ll' li' a.
    + replace (S li - n) with (S (li - n)) by lia. rewrite ssum_S. replace (n + (li - n)) with li by lia. rewrite PA.
      rewrite (ssum_ext (fun x => f (par (upd _ _ _) x)) (fun x => f (par vals x)) tb) by (intros; rewrite PO by lia; reflexivity).
      rewrite (ssum_ext (fun x => f (par (upd _ _ _) x)) (fun x => f (par vals x)) n) by (intros; rewrite PO by lia; reflexivity).
      lia.
    + replace (S ll - tb) with (S (ll - tb)) by lia. rewrite ssum_S. replace (tb + (ll - tb)) with ll by lia. rewrite PA.
      rewrite (ssum_ext (fun x => f (par (upd _ _ _) x)) (fun x => f (par vals x)) tb) by (intros; rewrite PO by lia; reflexivity).
      rewrite (ssum_ext (fun x => f (par (upd _ _ _) x)) (fun x => f (par vals x)) n) by (intros; rewrite PO by lia; reflexivity).
      lia.
Qed.

Lemma binv_next : forall n tb i vals ll li, binv n tb i 2 vals ll li -> i < length vals -> binv n tb (S i) 0 vals ll li.
Proof.
  intros n tb i vals ll li [Hl Hn Hll Hli Hp Hs] H. constructor; [left; reflexivity|lia|lia|lia| |].
  - intros x Hx. specialize (Hp x Hx). cbn [Nat.min] in *. lia.
  - intros f. specialize (Hs f). replace (S i - n) with (S (i - n)) by lia. rewrite ssum_S.
    replace (n + (i - n)) with i by lia. lia.
Qed.

Lemma build_length : forall k n i vals ll li, length (build k n i vals ll li) = length vals.
Proof.
  induction k as [|k IH]; intros n i vals ll li; cbn [build]; [reflexivity|].
  destruct (pick n i vals ll li) as [[a l1] l2].
  destruct (pick n i _ l1 l2) as [[b l3] l4]. rewrite IH, !upd_length. reflexivity.
Qed.

Lemma build_ok : forall k n tb i vals ll li,
  binv n tb i 0 vals ll li -> (n - ll) + (i - li) = k + 1 -> length vals = i + k -> (0 < k \/ li < i) ->
  binv n tb (i + k) 0 (build k n i vals ll li) n (i + k - 1).
Proof.
  induction k as [|k IH]; intros n tb i vals ll li HI HL HV HK; cbn [build].
  - pose proof (bi_ll _ _ _ _ _ _ _ HI). pose proof (bi_li _ _ _ _ _ _ _ HI).
    assert (ll = n) by lia. assert (li = i - 1) by lia. subst ll li. rewrite Nat.add_0_r. exact HI.
  - destruct (pick n i vals ll li) as [[a l1] l2] eqn:P1.
    destruct (binv_pick n tb i 0 vals ll li a l1 l2 (nth a vals 0%Z) HI ltac:(lia) ltac:(lia) P1) as [I1 L1].
    set (v1 := upd a (Z.of_nat i) (upd i (nth a vals 0%Z) vals)) in *.
    destruct (pick n i v1 l1 l2) as [[b l3] l4] eqn:P2.
    assert (LV : length v1 = length vals) by (unfold v1; rewrite !upd_length; reflexivity).
    destruct (binv_pick n tb i 1 v1 l1 l2 b l3 l4 ((nth i v1 0 + nth b v1 0) mod 2 ^ 32)%Z I1 ltac:(lia) ltac:(lia) P2) as [I2 L2].
    pose proof (bi_li _ _ _ _ _ _ _ I2) as B4. pose proof (bi_li _ _ _ _ _ _ _ I1) as B2.
    apply binv_next in I2; [|rewrite !upd_length; lia].
    replace (i + S k) with (S i + k) by lia. apply IH.
    + exact I2.
    + lia.
    + rewrite !upd_length. lia.
    + right. lia.
Qed.

(** * The depths *)
Lemma depths_spec : forall k n size p vals,
  length vals = size -> n + k < size ->
  (forall x, n <= x < n + k -> par vals x = p x /\ x < p x < size) ->
  let r := depths k n vals in
  length r = size
  /\ (forall x, x < n \/ n + k <= x -> nth x r 0%Z = nth x vals 0%Z)
  /\ (forall x, n <= x < n + k -> nth x r 0%Z = (nth (p x) r 0 + 1)%Z).
Proof.
  induction k as [|k IH]; intros n size p vals HL HS HP; cbn [depths].
  - split; [exact HL|]. split; [reflexivity|]. intros; lia.
  - set (v := (nth (Z.to_nat (nth (n + k) vals 0%Z)) vals 0 + 1)%Z).
    destruct (HP (n + k) ltac:(lia)) as [E1 E2]. unfold par in E1.
    specialize (IH n size p (upd (n + k) v vals)). destruct IH as [A [B C]].
    + rewrite upd_length. exact HL.
    + lia.
    + intros x Hx. unfold par. rewrite upd_nth_neq by lia. apply HP. lia.
    + split; [exact A|]. split.
      * intros x Hx. rewrite B by lia. apply upd_nth_neq. lia.
      * intros x Hx. destruct (Nat.eq_dec x (n + k)) as [->|N].
        -- rewrite !B by lia. rewrite upd_nth_eq by lia. rewrite upd_nth_neq by lia.
           unfold v. rewrite E1. reflexivity.
        -- apply C. lia.
Qed.

(** Kraft's equality for the leaves of the tree, for numbers [M] at least as
    great as all depths. *)
Lemma kraft_tree : forall n tb size p (D : nat -> nat) M,
  tb < n -> n < size ->
  (forall f, (ssum (fun x => f (p x)) tb (n - tb) + ssum (fun x => f (p x)) n (size - 1 - n)
              = 2 * ssum f n (size - n))%Z) ->
  D (size - 1) = 0 ->
  (forall x, n <= x < size - 1 -> D x = S (D (p x))) ->
  (forall x, n <= x < size -> D x < M) ->
  ssum (fun x => 2 ^ Z.of_nat (M - S (D (p x))))%Z tb (n - tb) = (2 ^ Z.of_nat M)%Z.
Proof.
  intros n tb size p D M H1 H2 HS H0 HD HM.
  specialize (HS (fun x => 2 ^ Z.of_nat (M - S (D x)))%Z). cbv beta in HS.
  rewrite (ssum_ext (fun x => 2 ^ Z.of_nat (M - S (D (p x))))%Z (fun x => 2 ^ Z.of_nat (M - S (D x)) * 2)%Z n) in HS.
  - unfold ssum in HS at 2. rewrite zsum_map_mul in HS. fold (ssum (fun x => 2 ^ Z.of_nat (M - S (D x)))%Z n (size - 1 - n)) in HS.
    replace (size - n) with (S (size - 1 - n)) in HS by lia. rewrite ssum_S in HS.
    replace (n + (size - 1 - n)) with (size - 1) in HS by lia. rewrite H0 in HS.
    specialize (HM (size - 1) ltac:(lia)). rewrite H0 in HM.
    assert (E : (2 ^ Z.of_nat M = 2 * 2 ^ Z.of_nat (M - 1))%Z).
    { replace (Z.of_nat M) with (Z.succ (Z.of_nat (M - 1))) by lia. apply Z.pow_succ_r. lia. }
    lia.
  - intros x Hx. rewrite (HD x) by lia. specialize (HM x ltac:(lia)). rewrite (HD x) in HM by lia.
    replace (Z.of_nat (M - S (D (p x)))) with (Z.succ (Z.of_nat (M - S (S (D (p x)))))) by lia.
    rewrite Z.pow_succ_r by lia. lia.
Qed.

(** * The numbers of codes of each length *)
Definition bsum (m : nat) (g : nat -> Z) (bl : list nat) : Z :=
  ssum (fun b => Z.of_nat (nth b bl 0%nat) * g b)%Z 0 (m + 1).

Lemma bsum_upd : forall m g bl b v, b <= m -> length bl = m + 1 ->
  bsum m g (upd b v bl) = (bsum m g bl + (Z.of_nat v - Z.of_nat (nth b bl 0%nat)) * g b)%Z.
Proof.
  intros m g bl b v Hb HL. unfold bsum, ssum.
  transitivity (zsum (map (fun k => Z.of_nat (nth k bl 0%nat) * g k
    + (if (k =? b)%nat then (Z.of_nat v - Z.of_nat (nth k bl 0%nat)) * g k else 0))%Z (seq 0 (m + 1)))).
  - apply zsum_map_ext. intros k _. destruct (Nat.eqb_spec k b) as [->|N].
    + rewrite upd_nth_eq by lia. lia.
    + rewrite upd_nth_neq by lia. lia.
  - rewrite zsum_map_add. f_equal.
    apply (zsum_one (fun k => (Z.of_nat v - Z.of_nat (nth k bl 0%nat)) * g k)%Z b 0 (m + 1)). lia.
Qed.

Lemma bsum_zero : forall m g, bsum m g (repeat 0 (m + 1)) = 0%Z.
Proof.
  intros. unfold bsum, ssum. apply zsum_map_zero. intros x _. rewrite nth_repeat. lia.
Qed.

Lemma bsum_fold : forall m ds bl, length bl = m + 1 -> Forall (fun d => d <= m) ds ->
  let r := fold_left (fun t d => upd d (nth d t 0 + 1) t) ds bl in
  length r = m + 1 /\ (forall g, bsum m g r = (bsum m g bl + zsum (map g ds))%Z)
  /\ (forall b, ~ In b ds -> nth b r 0 = nth b bl 0).
Proof.
  induction ds as [|d ds IH]; intros bl HL HF; cbn [fold_left].
  - split; [exact HL|]. split; [intros; cbn; lia|reflexivity].
  - inversion HF; subst. destruct (IH (upd d (nth d bl 0 + 1) bl)) as [A [B C]].
    + rewrite upd_length. exact HL.
    + assumption.
    + split; [exact A|]. split.
      * intros g. rewrite B, bsum_upd by assumption. cbn [map]. unfold zsum. cbn [fold_right]. lia.
      * intros b Hb. rewrite C by (intros X; apply Hb; right; exact X). apply upd_nth_neq.
        intros ->. apply Hb. left. reflexivity.
Qed.

Lemma last_used_spec : forall bl b,
  match last_used bl b with
  | Some b' => b' <= b /\ nth b' bl 0 <> 0 /\ forall x, b' < x <= b -> nth x bl 0 = 0
  | None => forall x, x <= b -> nth x bl 0 = 0
  end.
Proof.
  induction b as [|b IH]; cbn [last_used].
  - destruct (Nat.eqb_spec (nth 0 bl 0) 0).
    + intros x Hx. replace x with 0 by lia. assumption.
    + split; [lia|]. split; [assumption|]. intros; lia.
  - destruct (Nat.eqb_spec (nth (S b) bl 0) 0).
    + destruct (last_used bl b) as [b'|].
      * destruct IH as [A [B C]]. split; [lia|]. split; [exact B|]. intros x Hx.
        destruct (Nat.eq_dec x (S b)) as [->|]; [assumption|]. apply C. lia.
      * intros x Hx. destruct (Nat.eq_dec x (S b)) as [->|]; [assumption|]. apply IH. lia.
    + split; [lia|]. split; [assumption|]. intros; lia.
Qed.

(** Kraft's sum in units of 2^-m, the number of codes, and Kraft's sum of all
    codes shorter than [m]. *)
Definition kr (m : nat) (b : nat) : Z := (2 ^ Z.of_nat (m - b))%Z.
Definition krs (m : nat) (b : nat) : Z := if b <? m then kr m b else 0%Z.

Lemma kr_pos : forall m b, (1 <= kr m b)%Z.
Proof. intros. unfold kr. pose proof (Z.pow_pos_nonneg 2 (Z.of_nat (m - b))). lia. Qed.

Lemma bsum_split : forall m bl, bsum m (kr m) bl = (bsum m (krs m) bl + Z.of_nat (nth m bl 0%nat))%Z.
Proof.
  intros. unfold bsum. replace (m + 1) with (S m) by lia. rewrite !ssum_S. cbn [Nat.add].
  rewrite (ssum_ext (fun b => Z.of_nat (nth b bl 0%nat) * krs m b)%Z (fun b => Z.of_nat (nth b bl 0%nat) * kr m b)%Z).
  - unfold krs at 1. rewrite Nat.ltb_irrefl. unfold kr at 2. rewrite Nat.sub_diag. cbn [Z.of_nat Z.pow]. lia.
  - intros x Hx. unfold krs. destruct (Nat.ltb_spec x m); [reflexivity|lia].
Qed.

Lemma shorten_ok : forall overflow m bl cnt, 1 <= m ->
  length bl = m + 1 -> nth 0 bl 0 = 0 ->
  bsum m (kr m) bl = (2 ^ Z.of_nat m + Z.of_nat overflow)%Z ->
  bsum m (fun _ => 1%Z) bl = cnt -> (cnt <= 2 ^ Z.of_nat m)%Z ->
  (bsum m (krs m) bl <= 2 ^ Z.of_nat m)%Z ->
  exists bl', shorten overflow m bl = Some bl' /\ length bl' = m + 1 /\ nth 0 bl' 0 = 0
    /\ bsum m (kr m) bl' = (2 ^ Z.of_nat m)%Z /\ bsum m (fun _ => 1%Z) bl' = cnt.
Proof.
  induction overflow as [|overflow IH]; intros m bl cnt Hm HL H0 HK HC HB HS; cbn [shorten].
  - exists bl. split; [reflexivity|]. split; [exact HL|]. split; [exact H0|]. split; [lia|exact HC].
  - pose proof (bsum_split m bl) as SP. pose proof (last_used_spec bl (m - 1)) as LU.
    destruct (last_used bl (m - 1)) as [b|].
    + destruct LU as [L1 [L2 L3]].
      assert (Hb : 1 <= b) by (destruct b; [contradiction|lia]).
      set (b1 := upd b (nth b bl 0 - 1) bl).
      set (b2 := upd (b + 1) (nth (b + 1) b1 0 + 2) b1).
      set (b3 := upd m (nth m b2 0 - 1) b2).
      assert (LB1 : length b1 = m + 1) by (unfold b1; rewrite upd_length; exact HL).
      assert (LB2 : length b2 = m + 1) by (unfold b2; rewrite upd_length; exact LB1).
      assert (LB3 : length b3 = m + 1) by (unfold b3; rewrite upd_length; exact LB2).
      assert (NM : 1 <= nth m b2 0).
      { unfold b2. destruct (Nat.eq_dec (b + 1) m) as [->|N].
        - rewrite upd_nth_eq by lia. lia.
        - rewrite upd_nth_neq by lia. unfold b1. rewrite upd_nth_neq by lia. lia. }
      assert (SUM : forall g, bsum m g b3 = (bsum m g bl - g b + 2 * g (b + 1)%nat - g m)%Z).
      { intros g. unfold b3. rewrite bsum_upd by lia. unfold b2 at 1. rewrite bsum_upd by lia.
        unfold b1 at 1. rewrite bsum_upd by lia.
        replace (Z.of_nat (nth b bl 0%nat - 1) - Z.of_nat (nth b bl 0%nat))%Z with (-1)%Z by lia.
        replace (Z.of_nat (nth (b + 1) b1 0%nat + 2) - Z.of_nat (nth (b + 1) b1 0%nat))%Z with 2%Z by lia.
        replace (Z.of_nat (nth m b2 0%nat - 1) - Z.of_nat (nth m b2 0%nat))%Z with (-1)%Z by lia. lia. }
      assert (KB : (kr m b = 2 * kr m (b + 1))%Z).
      { unfold kr. replace (Z.of_nat (m - b)) with (Z.succ (Z.of_nat (m - (b + 1)))) by lia.
        apply Z.pow_succ_r. lia. }
      assert (KM : kr m m = 1%Z) by (unfold kr; rewrite Nat.sub_diag; reflexivity).
      apply IH.
      * exact Hm.
      * exact LB3.
      * unfold b3. rewrite upd_nth_neq by lia. unfold b2. rewrite upd_nth_neq by lia. unfold b1.
        rewrite upd_nth_neq by lia. exact H0.
      * rewrite SUM. lia.
      * rewrite SUM. lia.
      * exact HB.
      * rewrite SUM. unfold krs at 2 3 4. rewrite Nat.ltb_irrefl.
        destruct (Nat.ltb_spec b m); [|lia]. pose proof (kr_pos m b). pose proof (kr_pos m (b + 1)).
        destruct (b + 1 <? m); lia.
    + exfalso. assert (Z : bsum m (krs m) bl = 0%Z).
      { unfold bsum, ssum. apply zsum_map_zero. intros x Hx. apply in_seq in Hx. unfold krs.
        destruct (Nat.ltb_spec x m); [|lia]. rewrite LU by lia. lia. }
      assert (Z2 : (Z.of_nat (nth m bl 0%nat) <= bsum m (fun _ => 1) bl)%Z).
      { unfold bsum. replace (m + 1) with (S m) by lia. rewrite ssum_S. cbn [Nat.add].
        assert (0 <= ssum (fun b : nat => Z.of_nat (nth b bl 0%nat) * 1) 0 m)%Z by (apply zsum_nonneg; intros; lia). lia. }
      lia.
Qed.

(** * The lengths are handed out *)
Lemma zsum_upd : forall (f : nat -> Z) l s v, s < length l ->
  zsum (map f (upd s v l)) = (zsum (map f l) + f v - f (nth s l 0%nat))%Z.
Proof.
  induction l as [|x l IH]; intros s v H; cbn [length] in H; [lia|].
  destruct s; cbn [upd map nth]; unfold zsum in *; cbn [fold_right]; [lia|]. rewrite IH by lia. lia.
Qed.

Lemma assign_ok : forall m symbols bl b out,
  b <= m -> length bl = m + 1 -> nth 0 bl 0 = 0 ->
  (forall x, b < x <= m -> nth x bl 0 = 0) ->
  bsum m (fun _ => 1%Z) bl = Z.of_nat (length symbols) ->
  NoDup symbols -> Forall (fun s => s < length out) symbols -> Forall (fun s => nth s out 0 = 0) symbols ->
  exists r, assign symbols bl b out = Some r /\ length r = length out
    /\ (forall s, ~ In s symbols -> nth s r 0 = nth s out 0)
    /\ (forall s, In s symbols -> 1 <= nth s r 0 <= m)
    /\ zsum (map weight r) = (zsum (map weight out) + bsum m weight bl)%Z.
Proof.
  induction symbols as [|s symbols IH]; intros bl b out Hb HL H0 HZ HC HN HR HO; cbn [assign].
  - exists out. split; [reflexivity|]. split; [reflexivity|]. split; [reflexivity|]. split; [intros s []|].
    assert (Z : forall x, x <= m -> nth x bl 0 = 0).
    { intros x Hx. cbn [length] in HC.
      assert (E : bsum m (fun _ => 1%Z) (upd x 0 bl) = (bsum m (fun _ => 1%Z) bl + (0 - Z.of_nat (nth x bl 0%nat)) * 1)%Z)
        by (apply bsum_upd; lia).
      assert (0 <= bsum m (fun _ => 1%Z) (upd x 0%nat bl))%Z by (apply zsum_nonneg; intros; lia). lia. }
    assert (bsum m weight bl = 0%Z).
    { unfold bsum, ssum. apply zsum_map_zero. intros x Hx. apply in_seq in Hx. rewrite Z by lia. lia. }
    lia.
  - pose proof (last_used_spec bl b) as LU. inversion HN; subst. inversion HR; subst. inversion HO; subst.
    destruct (last_used bl b) as [b'|].
    + destruct LU as [L1 [L2 L3]].
      destruct (IH (upd b' (nth b' bl 0 - 1) bl) b' (upd s b' out)) as [r [A [B [C [D F]]]]].
      * lia.
      * rewrite upd_length. exact HL.
      * destruct (Nat.eq_dec b' 0) as [->|]; [contradiction|]. rewrite upd_nth_neq by lia. exact H0.
      * intros x Hx. rewrite upd_nth_neq by lia. destruct (Nat.le_gt_cases x b); [apply L3; lia|apply HZ; lia].
      * rewrite bsum_upd by lia. rewrite HC. cbn [length]. lia.
      * assumption.
      * eapply Forall_impl; [|exact H5]. intros. rewrite upd_length. assumption.
      * apply Forall_forall. intros x Hx. rewrite upd_nth_neq; [|intros ->; contradiction].
        rewrite Forall_forall in H7. apply H7. exact Hx.
      * exists r. split; [exact A|]. split; [rewrite B, upd_length; reflexivity|]. split; [|split].
        -- intros x Hx. rewrite C by (intros X; apply Hx; right; exact X). apply upd_nth_neq.
           intros ->. apply Hx. left. reflexivity.
        -- intros x [<-|Hx]; [|apply D; exact Hx]. rewrite C by assumption. rewrite upd_nth_eq by assumption.
           split; [|lia]. destruct b'; [contradiction|lia].
        -- rewrite F, zsum_upd by assumption. rewrite bsum_upd by lia. rewrite H6.
           change (weight 0) with 0%Z.
           replace (Z.of_nat (nth b' bl 0%nat - 1) - Z.of_nat (nth b' bl 0%nat))%Z with (-1)%Z by lia. lia.
    + exfalso. cbn [length] in HC.
      assert (bsum m (fun _ => 1%Z) bl = 0%Z).
      { unfold bsum, ssum. apply zsum_map_zero. intros x Hx. apply in_seq in Hx.
        destruct (Nat.le_gt_cases x b); [rewrite LU by lia|rewrite HZ by lia]; lia. }
      lia.
Qed.

(** * All together *)
Lemma zsum_map_map : forall {A B} (f : A -> B) (g : B -> Z) l, zsum (map g (map f l)) = zsum (map (fun x => g (f x)) l).
Proof. intros. rewrite map_map. reflexivity. Qed.

Lemma sum_fold : forall m ds acc, Z.of_nat (fold_left (fun s d => s + 2 ^ (m - d)) ds acc) = (Z.of_nat acc + zsum (map (kr m) ds))%Z.
Proof.
  induction ds as [|d ds IH]; intros acc; cbn [fold_left map].
  - unfold zsum. cbn [fold_right]. lia.
  - rewrite IH. unfold zsum, kr. cbn [fold_right]. rewrite Nat2Z.inj_add, Nat2Z.inj_pow. lia.
Qed.

(** Cutting depths down to [m]. *)
Lemma clip : forall m M ds, Forall (fun d => d <= M) ds ->
  zsum (map (fun d => 2 ^ Z.of_nat (M - d))%Z ds) = (2 ^ Z.of_nat M)%Z ->
  (2 ^ Z.of_nat m <= zsum (map (kr m) (map (Nat.min m) ds)))%Z
  /\ (zsum (map (krs m) (map (Nat.min m) ds)) <= 2 ^ Z.of_nat m)%Z.
Proof.
  intros m M ds HF HS. rewrite !zsum_map_map.
  assert (P : (0 < 2 ^ Z.of_nat M)%Z) by (apply Z.pow_pos_nonneg; lia).
  assert (E : zsum (map (fun d => 2 ^ Z.of_nat (M - d) * 2 ^ Z.of_nat m)%Z ds) = (2 ^ Z.of_nat m * 2 ^ Z.of_nat M)%Z)
    by (rewrite zsum_map_mul, HS; lia).
  rewrite Forall_forall in HF. split.
  - apply (Z.mul_le_mono_pos_r _ _ (2 ^ Z.of_nat M)); [exact P|]. rewrite <- E, <- zsum_map_mul.
    apply zsum_map_le. intros d Hd. specialize (HF d Hd). unfold kr. rewrite <- !Z.pow_add_r by lia.
    apply Z.pow_le_mono_r; lia.
  - apply (Z.mul_le_mono_pos_r _ _ (2 ^ Z.of_nat M)); [exact P|]. rewrite <- E, <- zsum_map_mul.
    apply zsum_map_le. intros d Hd. specialize (HF d Hd). unfold krs.
    destruct (Nat.ltb_spec (Nat.min m d) m).
    + unfold kr. rewrite <- !Z.pow_add_r by lia. apply Z.pow_le_mono_r; lia.
    + rewrite Z.mul_0_l. apply Z.mul_nonneg_nonneg; apply Z.pow_nonneg; lia.
Qed.

(** The depths of the leaves, cut at [m]. *)
Lemma leaf_depths : forall m n tb vals0, tb + 1 < n -> length vals0 = n ->
  let size := n + n - tb - 1 in
  let vals := vals0 ++ repeat 0%Z (size - n) in
  let vals := build (size - n) n n vals tb n in
  let vals := upd (size - 1) 0%Z vals in
  let vals := depths (size - 1 - n) n vals in
  exists M ds, map (leaf_depth m vals) (seq tb (n - tb)) = map (Nat.min m) ds
    /\ Forall (fun d => 1 <= d <= M) ds
    /\ zsum (map (fun d => 2 ^ Z.of_nat (M - d))%Z ds) = (2 ^ Z.of_nat M)%Z.
Proof.
  intros m n tb vals0 Ht HL size v0 v1 v2 v3.
  assert (Hs : n < size) by (unfold size; lia).
  assert (L0 : length v0 = n + (size - n)) by (unfold v0; rewrite app_length, repeat_length, HL; lia).
  assert (B0 : binv n tb n 0 v0 tb n).
  { constructor; [left; reflexivity|lia|lia|lia|intros; lia|]. intros f. rewrite !Nat.sub_diag.
    unfold ssum. cbn [seq map]. unfold zsum. cbn [fold_right]. lia. }
  pose proof (build_ok (size - n) n tb n v0 tb n B0 ltac:(unfold size; lia) L0 ltac:(lia)) as B1. fold v1 in B1.
  replace (n + (size - n)) with size in * by lia.
  assert (L1 : length v1 = size) by (unfold v1; rewrite build_length; exact L0).
  destruct B1 as [_ _ _ _ BP BS].
  set (p := par v1) in *.
  assert (P2 : forall x, x <> size - 1 -> par v2 x = p x).
  { intros x Hx. unfold p, par, v2. rewrite upd_nth_neq by lia. reflexivity. }
  destruct (depths_spec (size - 1 - n) n size p v2) as [L3 [D1 D2]].
  { unfold v2. rewrite upd_length. exact L1. }
  { lia. }
  { intros x Hx. split; [apply P2; lia|]. specialize (BP x ltac:(lia)). cbn [Nat.min] in BP. lia. }
  fold v3 in L3, D1, D2.
  set (D := fun x => Z.to_nat (nth x v3 0%Z)).
  assert (T : nth (size - 1) v3 0%Z = 0%Z).
  { rewrite D1 by lia. unfold v2. apply upd_nth_eq. lia. }
  (* depths are bounded *)
  assert (DB : forall k x, size - 1 - x = k -> n <= x < size -> (0 <= nth x v3 0 <= Z.of_nat (size - 1 - x))%Z).
  { induction k as [k IH] using lt_wf_ind. intros x Hk Hx.
    destruct (Nat.eq_dec x (size - 1)) as [->|N]; [rewrite T; lia|].
    rewrite D2 by lia. specialize (BP x ltac:(lia)). cbn [Nat.min] in BP.
    specialize (IH (size - 1 - p x) ltac:(lia) (p x) eq_refl ltac:(lia)). lia. }
  assert (DB' : forall x, n <= x < size -> (0 <= nth x v3 0 <= Z.of_nat (size - 1 - x))%Z) by (intros; eapply DB; [reflexivity|assumption]).
  exists (size + 1), (map (fun x => S (D (p x))) (seq tb (n - tb))). split; [|split].
  - rewrite map_map. apply map_ext_in. intros x Hx. apply in_seq in Hx. unfold leaf_depth. f_equal.
    assert (E : Z.to_nat (nth x v3 0%Z) = p x).
    { rewrite D1 by lia. apply (P2 x). lia. }
    rewrite E. specialize (BP x ltac:(lia)). cbn [Nat.min] in BP. specialize (DB' (p x) ltac:(lia)). unfold D. lia.
  - apply Forall_forall. intros d Hd. apply in_map_iff in Hd. destruct Hd as [x [<- Hx]]. apply in_seq in Hx.
    specialize (BP x ltac:(lia)). cbn [Nat.min] in BP. specialize (DB' (p x) ltac:(lia)). unfold D. lia.
  - rewrite zsum_map_map. apply (kraft_tree n tb size p D (size + 1)).
    + lia.
    + exact Hs.
    + intros f. specialize (BS f). fold p in BS. cbn [Z.of_nat] in BS.
      replace (size - 1 - n) with (size - 1 - n) by lia. lia.
    + unfold D. rewrite T. reflexivity.
    + intros x Hx. unfold D. rewrite D2 by lia. specialize (BP x ltac:(lia)). cbn [Nat.min] in BP.
      specialize (DB' (p x) ltac:(lia)). lia.
    + intros x Hx. specialize (DB' x Hx). unfold D. lia.
Qed.

Theorem code_lengths_ok : forall m counts,
  1 <= m <= 32 -> (Z.of_nat (length counts) <= 2 ^ Z.of_nat m)%Z -> Forall (fun c => (0 <= c)%Z) counts ->
  exists lens, code_lengths m counts = Some lens /\ length lens = length counts
    /\ (forall i, nth i lens 0 <> 0 <-> (0 < nth i counts 0)%Z)
    /\ Forall (fun l => l <= m) lens
    /\ (complete lens \/ (exists i, one_code lens i) \/ lens = repeat 0 (length counts)).
Proof.
  intros m counts Hm Hn Hnn. unfold code_lengths. set (n := length counts) in *.
  set (leaves := leaves_of counts). set (tb := tree_begin leaves).
  pose proof (tb_le counts) as TB. fold leaves tb n in TB.
  pose proof (leaves_length counts) as LL. fold leaves n in LL.
  pose proof (symbols_length counts) as SL. fold leaves tb n in SL.
  pose proof (symbols_nodup counts) as SN. fold leaves tb in SN.
  pose proof (symbols_in counts) as SI. fold leaves tb n in SI.
  destruct (Nat.eqb_spec tb n) as [E|N].
  - exists (repeat 0 n). split; [reflexivity|]. split; [apply repeat_length|].
    assert (Z : forall i, ~ (0 < nth i counts 0)%Z).
    { intros i H. destruct (Nat.lt_ge_cases i n) as [Hi|Hi].
      - assert (In i (skipn tb (map fst leaves))) by (apply SI; split; assumption).
        destruct (skipn tb (map fst leaves)); [contradiction|cbn [length] in SL; lia].
      - rewrite nth_overflow in H by exact Hi. lia. }
    split; [|split; [|right; right; reflexivity]].
    + intros i. rewrite nth_repeat. split; [congruence|intros H; destruct (Z i H)].
    + apply Forall_forall. intros x Hx. apply repeat_spec in Hx. lia.
  - set (size := n + n - tb - 1).
    set (vals := depths _ _ _).
    set (ds := map (leaf_depth m vals) (seq tb (n - tb))).
    set (bl := fold_left _ ds (repeat 0 (m + 1))). set (sum := fold_left _ ds 0).
    assert (C : (tb + 1 = n /\ ds = [1]) \/ (tb + 1 < n /\ exists M ds', ds = map (Nat.min m) ds'
        /\ Forall (fun d => 1 <= d <= M) ds'
        /\ zsum (map (fun d => 2 ^ Z.of_nat (M - d))%Z ds') = (2 ^ Z.of_nat M)%Z)).
    { destruct (Nat.eq_dec (tb + 1) n) as [E1|N1].
      - left. split; [exact E1|]. unfold ds. replace (n - tb) with 1 by lia. cbn [seq map].
        unfold vals. replace size with n by (unfold size; lia). rewrite Nat.sub_diag.
        replace (n - 1 - n) with 0 by lia. cbn [repeat build depths]. rewrite app_nil_r.
        unfold leaf_depth. replace tb with (n - 1) by lia.
        rewrite upd_nth_eq by (rewrite map_length; fold leaves; lia). cbn [Z.to_nat].
        destruct (Nat.eq_dec tb 0) as [Z0|NZ].
        + replace (n - 1) with 0 by lia. rewrite upd_nth_eq by (rewrite map_length; lia).
          replace (Z.to_nat (0 + 1)) with 1 by reflexivity. f_equal. lia.
        + rewrite upd_nth_neq by lia. unfold leaves. rewrite (first_zero counts Hnn) by (fold leaves tb; lia).
          replace (Z.to_nat (0 + 1)) with 1 by reflexivity. f_equal. lia.
      - right. split; [lia|]. apply (leaf_depths m n tb (map snd leaves)); [lia|rewrite map_length; exact LL]. }
    assert (LD : length ds = n - tb) by (unfold ds; rewrite map_length, seq_length; reflexivity).
    assert (FD : Forall (fun d => 1 <= d <= m) ds).
    { destruct C as [[_ ->]|[_ [M [ds' [-> [F _]]]]]]; [constructor; [lia|constructor]|].
      apply Forall_forall. intros d Hd. apply in_map_iff in Hd. destruct Hd as [x [<- Hx]].
      rewrite Forall_forall in F. specialize (F x Hx). lia. }
    destruct (bsum_fold m ds (repeat 0 (m + 1))) as [BL [BS BN]].
    { apply repeat_length. }
    { eapply Forall_impl; [|exact FD]. cbn. intros; lia. }
    fold bl in BL, BS, BN.
    assert (BS' : forall g, bsum m g bl = zsum (map g ds)) by (intros g; rewrite BS, bsum_zero; lia). clear BS.
    assert (B0 : nth 0 bl 0 = 0).
    { rewrite BN; [apply nth_repeat|]. intros X. rewrite Forall_forall in FD. apply FD in X. lia. }
    assert (SUM : Z.of_nat sum = zsum (map (kr m) ds)) by (unfold sum; rewrite sum_fold; lia).
    assert (CNT : bsum m (fun _ => 1%Z) bl = Z.of_nat (n - tb)).
    { rewrite BS', <- LD. clear. induction ds as [|d ds IH]; [reflexivity|].
      cbn [map length]. unfold zsum in *. cbn [fold_right]. lia. }
    assert (P2 : Z.of_nat (2 ^ m) = (2 ^ Z.of_nat m)%Z) by (rewrite Nat2Z.inj_pow; reflexivity).
    assert (SH : exists bl', shorten (sum - 2 ^ m) m bl = Some bl' /\ length bl' = m + 1 /\ nth 0 bl' 0 = 0
       /\ bsum m (fun _ => 1%Z) bl' = Z.of_nat (n - tb)
       /\ ((tb + 1 < n /\ bsum m (kr m) bl' = (2 ^ Z.of_nat m)%Z) \/ (tb + 1 = n /\ bl' = bl))).
    { destruct C as [[E1 Eds]|[L1 [M [ds' [Eds [F K]]]]]].
      - exists bl. assert (sum - 2 ^ m = 0).
        { unfold sum. rewrite Eds. cbn [fold_left Nat.add]. pose proof (Nat.pow_le_mono_r 2 (m - 1) m). lia. }
        rewrite H. split; [reflexivity|]. split; [exact BL|]. split; [exact B0|]. split; [exact CNT|right; auto].
      - destruct (clip m M ds') as [C1 C2].
        { eapply Forall_impl; [|exact F]. cbn. intros; lia. }
        { exact K. }
        rewrite <- Eds in C1, C2.
        destruct (shorten_ok (sum - 2 ^ m) m bl (Z.of_nat (n - tb))) as [bl' [S1 [S2 [S3 [S4 S5]]]]].
        + lia.
        + exact BL.
        + exact B0.
        + rewrite BS'. lia.
        + exact CNT.
        + lia.
        + rewrite BS'. exact C2.
        + exists bl'. auto 10. }
    destruct SH as [bl' [S1 [S2 [S3 [S4 S5]]]]]. rewrite S1.
    destruct (assign_ok m (skipn tb (map fst leaves)) bl' m (repeat 0 n)) as [r [R1 [R2 [R3 [R4 R5]]]]].
    + lia.
    + exact S2.
    + exact S3.
    + intros; lia.
    + rewrite S4, SL. reflexivity.
    + exact SN.
    + apply Forall_forall. intros s Hs. apply SI in Hs. rewrite repeat_length. apply Hs.
    + apply Forall_forall. intros s Hs. apply nth_repeat.
    + exists r. split; [exact R1|]. rewrite repeat_length in R2. split; [exact R2|].
      assert (Q : forall i, nth i r 0 <> 0 <-> (0 < nth i counts 0)%Z).
      { intros i. destruct (in_dec Nat.eq_dec i (skipn tb (map fst leaves))) as [I|I].
        - specialize (R4 i I). apply SI in I. split; [intros _; apply I|lia].
        - rewrite R3 by exact I. rewrite nth_repeat. split; [congruence|]. intros P. exfalso. apply I. apply SI.
          split; [|exact P]. destruct (Nat.lt_ge_cases i n); [assumption|]. rewrite nth_overflow in P by assumption. lia. }
      assert (B : forall i, nth i r 0 <= m).
      { intros i. destruct (in_dec Nat.eq_dec i (skipn tb (map fst leaves))) as [I|I].
        - specialize (R4 i I). lia.
        - rewrite R3 by exact I. rewrite nth_repeat. lia. }
      assert (FB : Forall (fun l => l <= m) r).
      { apply Forall_forall. intros x Hx. apply In_nth with (d := 0) in Hx. destruct Hx as [i [_ <-]]. apply B. }
      split; [exact Q|]. split; [exact FB|].
      destruct S5 as [[L1 K]|[E1 Ebl]].
      * left. split; [eapply Forall_impl; [|exact FB]; cbn; intros; lia|]. rewrite R5.
        assert (Z0 : zsum (map weight (repeat 0 n)) = 0%Z).
        { apply zsum_map_zero. intros x Hx. apply repeat_spec in Hx. subst x. reflexivity. }
        rewrite Z0, Z.add_0_l.
        assert (W : bsum m weight bl' = (bsum m (kr m) bl' * 2 ^ Z.of_nat (32 - m))%Z).
        { unfold bsum, ssum. rewrite <- zsum_map_mul. apply zsum_map_ext. intros b Hb. apply in_seq in Hb.
          unfold weight. destruct (Nat.eqb_spec b 0) as [->|Nb]; [rewrite S3; reflexivity|].
          unfold kr. rewrite <- Z.mul_assoc, <- Z.pow_add_r by lia. f_equal. f_equal. lia. }
        rewrite W, K, <- Z.pow_add_r by lia. f_equal. lia.
      * right. left. destruct (skipn tb (map fst leaves)) as [|s l] eqn:ES; [cbn [length] in SL; lia|].
        destruct l; [|cbn [length] in SL; lia].
        destruct C as [[_ Eds]|[X _]]; [|lia].
        exists s. split.
        -- (* the only length there is *)
           subst bl'. cbn [assign] in R1. pose proof (last_used_spec bl m) as LU.
           destruct (last_used bl m) as [b|]; [|discriminate]. injection R1 as <-.
           destruct LU as [_ [LU _]].
           rewrite upd_nth_eq by (rewrite repeat_length; apply SI; left; reflexivity).
           destruct (Nat.eq_dec b 1) as [|Nb]; [assumption|exfalso]. apply LU. rewrite BN; [apply nth_repeat|].
           rewrite Eds. intros [X|[]]. lia.
        -- intros j Hj. rewrite R3; [apply nth_repeat|]. intros [X|[]]. congruence.
Qed.
