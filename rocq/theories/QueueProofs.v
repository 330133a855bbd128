(** Proofs about the ByteQueue and MessageQueue models. *)
From Coq Require Import ZArith List Lia Bool Arith.
From Verif Require Import Base QueueModel QueueSpec.
Import ListNotations.
Local Open Scope Z_scope.

Definition ncontent (n : node) : list Z := firstn (ntl n - nhd n) (skipn (nhd n) (nbuf n)).
Definition ncontents (l : list node) : list Z := concat (map ncontent l).
Definition ninv (n : node) : Prop := (nhd n <= ntl n <= length (nbuf n))%nat.
Definition nfull (n : node) : Prop := ntl n = length (nbuf n) /\ (nhd n < ntl n)%nat.
Definition tinv (n : node) : Prop := ninv n /\ (nhd n < length (nbuf n))%nat.
Fixpoint nodes_inv (l : list node) : Prop :=
  match l with
  | [] => False
  | [t] => tinv t
  | n :: rest => nfull n /\ nodes_inv rest
  end.
Definition qcontent (q : queue) : list Z := ncontents (qnodes q) ++ qlazy q.
Definition qinv (q : queue) : Prop := nodes_inv (qnodes q) /\ (0 < qnsize q)%nat.
Definition qabs (q : queue) : aqueue := mkA (qcontent q) (length (qlazy q)).

Lemma full_ninv : forall n, nfull n -> ninv n.
Proof. unfold nfull, ninv. lia. Qed.

Lemma ncontent_length : forall n, ninv n -> length (ncontent n) = node_size n.
Proof.
  unfold ninv, ncontent, node_size. intros. rewrite firstn_length, skipn_length. lia.
Qed.

Lemma nodes_inv_cons : forall n rest, rest <> [] -> nodes_inv (n :: rest) <-> nfull n /\ nodes_inv rest.
Proof. intros. destruct rest; [congruence|]. simpl. tauto. Qed.

Lemma nodes_inv_ne : forall l, nodes_inv l -> l <> [].
Proof. destruct l; simpl; congruence || tauto. Qed.

Lemma nodes_inv_Forall : forall l, nodes_inv l -> Forall ninv l.
Proof.
  induction l; intros H; auto. destruct l.
  - constructor; auto. apply H.
  - destruct H. constructor; auto. apply full_ninv; auto.
Qed.

Lemma ncontents_cons : forall n l, ncontents (n :: l) = ncontent n ++ ncontents l.
Proof. reflexivity. Qed.

Lemma ncontents_app : forall a b, ncontents (a ++ b) = ncontents a ++ ncontents b.
Proof. intros. unfold ncontents. rewrite map_app, concat_app. reflexivity. Qed.

Lemma nodes_inv_app : forall a t, nodes_inv (a ++ [t]) <-> Forall nfull a /\ tinv t.
Proof.
  induction a; intros.
  - simpl. split; intros; auto. tauto.
  - cbn [app]. rewrite nodes_inv_cons by (destruct a0; discriminate). rewrite IHa.
    rewrite Forall_cons_iff. tauto.
Qed.

Lemma nodes_split : forall l, l <> [] -> l = removelast l ++ [last l (node_new 0)].
Proof. intros. apply app_removelast_last; auto. Qed.

Lemma blit_length : forall o d buf, (o + length d <= length buf)%nat -> length (blit o d buf) = length buf.
Proof.
  intros. unfold blit. rewrite !app_length, firstn_length, skipn_length. lia.
Qed.

Lemma blit_prefix : forall o d buf, (o <= length buf)%nat -> firstn (o + length d) (blit o d buf) = firstn o buf ++ d.
Proof.
  intros. unfold blit. rewrite app_assoc.
  replace (o + length d)%nat with (length (firstn o buf ++ d)) at 1
    by (rewrite app_length, firstn_length_le'; lia).
  apply firstn_app_exact.
Qed.

Lemma range_as_prefix : forall (l : list Z) a b, firstn (b - a) (skipn a l) = skipn a (firstn b l).
Proof. intros. rewrite skipn_firstn_comm. reflexivity. Qed.

Lemma node_put_spec : forall n d n' l, ninv n -> node_put n d = (n', l) ->
  l = Nat.min (length d) (node_max n - ntl n) /\ ninv n' /\ ncontent n' = ncontent n ++ firstn l d /\
  nhd n' = nhd n /\ ntl n' = (ntl n + l)%nat /\ node_max n' = node_max n.
Proof.
  unfold node_put, ninv, ncontent, node_max. intros n d n' l H E. inversion E; clear E. subst n'.
  rewrite H2. set (k := l) in *.
  assert (L : length (firstn k d) = k) by (rewrite firstn_length_le'; lia).
  cbn [nhd ntl nbuf]. rewrite blit_length by (rewrite L; lia).
  repeat split; try lia.
  rewrite !range_as_prefix.
  rewrite <- L at 1. rewrite blit_prefix by lia.
  rewrite skipn_app_le; auto. rewrite firstn_length_le'; lia.
Qed.

Lemma node_new_inv : forall s, ninv (node_new s).
Proof. unfold ninv, node_new. simpl. intros. lia. Qed.

Lemma node_new_content : forall s, ncontent (node_new s) = [].
Proof. reflexivity. Qed.

Lemma node_new_max : forall s, node_max (node_new s) = s.
Proof. intros. unfold node_max. simpl. apply repeat_length. Qed.

(* ------------------------------------------------ growth *)
Lemma grow_total : forall f ns len, (0 < ns)%nat -> (maxAutoNodeSize <= ns * 2 ^ f)%nat -> (0 < f)%nat ->
  exists r, grow f ns len = Some r /\ (0 < r)%nat.
Proof.
  induction f; intros; try lia. cbn [grow].
  destruct (Nat.ltb_spec (ns * 2) len), (Nat.ltb_spec (ns * 2) maxAutoNodeSize); cbn [andb];
    try (eexists; split; [reflexivity|lia]).
  destruct f.
  - change (2 ^ 1)%nat with 2%nat in H0. lia.
  - apply IHf; try lia. rewrite <- Nat.mul_assoc. replace (2 * 2 ^ S f)%nat with (2 ^ S (S f))%nat; auto.
Qed.

Lemma grow_ok : forall ns len, (0 < ns)%nat -> exists r, grow grow_fuel ns len = Some r /\ (0 < r)%nat.
Proof.
  intros. apply grow_total; auto.
  - unfold maxAutoNodeSize, grow_fuel.
    assert (2 ^ 14 <= 2 ^ 20)%nat by (apply Nat.pow_le_mono_r; lia).
    revert H0. generalize (2 ^ 14)%nat (2 ^ 20)%nat. intros. nia.
  - unfold grow_fuel; lia.
Qed.

(* ------------------------------------------------ Put *)
Lemma put_loop_spec : forall f nodes ns auto d, nodes_inv nodes -> (0 < ns)%nat ->
  (1 < f)%nat \/ ((0 < f)%nat /\ (length d <= node_max (last nodes (node_new 0)) - ntl (last nodes (node_new 0)))%nat) ->
  exists nodes' ns', put_loop f nodes ns auto d = Some (nodes', ns') /\ nodes_inv nodes' /\ (0 < ns')%nat /\
    ncontents nodes' = ncontents nodes ++ d.
Proof.
  induction f; intros nodes ns auto d Hi Hns Hf; [lia|].
  cbn [put_loop].
  pose proof (nodes_split nodes (nodes_inv_ne _ Hi)) as Hs.
  set (t := last nodes (node_new 0)) in *.
  destruct (node_put t d) as [t' len] eqn:Ep.
  rewrite Hs in Hi. apply nodes_inv_app in Hi. destruct Hi as [Hf1 [Ht Ht0]].
  destruct (node_put_spec _ _ _ _ Ht Ep) as (El & Ht' & Hc & Hh & Htl & Hm).
  assert (Hcont : ncontents (removelast nodes ++ [t']) = ncontents nodes ++ firstn len d).
  { rewrite Hs at 2. rewrite !ncontents_app. cbn. rewrite !app_nil_r, Hc, <- app_assoc. reflexivity. }
  destruct (Nat.ltb_spec len (length d)) as [L|L].
  - assert (exists ns', (if auto && Nat.ltb ns maxAutoNodeSize then grow grow_fuel ns (length (skipn len d)) else Some ns)
       = Some ns' /\ (0 < ns')%nat) as (ns' & Eg & Hg).
    { destruct (auto && Nat.ltb ns maxAutoNodeSize). apply grow_ok; auto. eauto. }
    rewrite Eg.
    destruct Hf as [Hf|[Hf Hl]]; [|lia].
    edestruct (IHf ((removelast nodes ++ [t']) ++ [node_new (Nat.max ns' (length (skipn len d)))]) ns' auto (skipn len d))
      as (n1 & s1 & E1 & I1 & P1 & C1).
    + apply nodes_inv_app. split; [|split; [apply node_new_inv|cbn; rewrite repeat_length; lia]]. apply Forall_app; split; auto.
      constructor; auto. unfold nfull, ninv in *. unfold node_max in *. lia.
    + auto.
    + right. rewrite last_last, node_new_max. cbn [node_new ntl]. lia.
    + exists n1, s1. repeat split; auto. rewrite C1, ncontents_app, Hcont. cbn.
      rewrite app_nil_r, <- app_assoc, firstn_skipn. reflexivity.
  - exists (removelast nodes ++ [t']), ns. repeat split; auto.
    + apply nodes_inv_app; split; auto. split; auto. unfold node_max in *. lia.
    + rewrite Hcont, firstn_all2 by lia. reflexivity.
Qed.

Lemma put_raw_spec : forall q d, qinv q -> exists q', put_raw q d = Some q' /\ qinv q' /\
  ncontents (qnodes q') = ncontents (qnodes q) ++ d /\ qlazy q' = qlazy q.
Proof.
  intros q d [Hi Hn]. unfold put_raw.
  destruct (put_loop_spec 3 (qnodes q) (qnsize q) (qauto q) d) as (n1 & s1 & E1 & I1 & P1 & C1); auto.
  rewrite E1. eexists. split; [reflexivity|]. unfold qinv. cbn. auto.
Qed.

Lemma q_finalize_spec : forall q, qinv q -> exists q', q_finalize q = Some q' /\ qinv q' /\
  ncontents (qnodes q') = qcontent q /\ qlazy q' = [].
Proof.
  intros q H. unfold q_finalize, qcontent. destruct (qlazy q) as [|b r] eqn:E.
  - exists q. rewrite app_nil_r. auto.
  - apply (put_raw_spec (mkQ (qnodes q) [] (qnsize q) (qlazymod q) (qauto q))). exact H.
Qed.

Lemma q_put_spec : forall q d, qinv q -> exists q', q_put q d = Some q' /\ qinv q' /\
  qabs q' = mkA (qcontent q ++ d) 0.
Proof.
  intros q d H. unfold q_put. destruct (q_finalize_spec q H) as (q1 & E1 & I1 & C1 & L1). rewrite E1.
  destruct (put_raw_spec q1 d I1) as (q2 & E2 & I2 & C2 & L2).
  exists q2. repeat split; auto; try apply I2. unfold qabs, qcontent. rewrite L2, L1, C2, C1, app_nil_r. reflexivity.
Qed.

(* ------------------------------------------------ head access *)
Lemma qnodes_head : forall q, qinv q -> qnodes q = qhead q :: tl (qnodes q).
Proof. intros q [H _]. unfold qhead. destruct (qnodes q); simpl in *; tauto || auto. Qed.

Lemma qhead_ninv : forall q, qinv q -> ninv (qhead q).
Proof.
  intros q H. pose proof (qnodes_head q H) as E. destruct H as [H _]. rewrite E in H.
  apply nodes_inv_Forall in H. inversion H; auto.
Qed.

Lemma node_peek_content : forall n, ninv n -> node_peek n = hd_error (ncontent n).
Proof.
  intros n H. unfold node_peek, ncontent, ninv in *.
  destruct (Nat.eqb_spec (ntl n) (nhd n)) as [E|E].
  - rewrite E, Nat.sub_diag. reflexivity.
  - destruct (skipn (nhd n) (nbuf n)) eqn:Es.
    + apply (f_equal (@length Z)) in Es. rewrite skipn_length in Es. simpl in Es. lia.
    + destruct (ntl n - nhd n)%nat eqn:Ed; [lia|]. cbn [firstn hd_error].
      rewrite <- (Nat.add_0_r (nhd n)), <- nth_skipn_add, Es. reflexivity.
Qed.

(* empty head: then it is the only node *)
Lemma head_empty_single : forall q, qinv q -> ncontent (qhead q) = [] -> qnodes q = [qhead q].
Proof.
  intros q H E. pose proof (qnodes_head q H) as En. rewrite En. pose proof H as [Hn _]. rewrite En in Hn.
  destruct (tl (qnodes q)) eqn:Et; auto. destruct Hn as [Hf _].
  apply (f_equal (@length Z)) in E. rewrite ncontent_length in E by (apply full_ninv; auto).
  unfold nfull, node_size in *. simpl in E. lia.
Qed.

Lemma advance_content : forall n k, (nhd n + k <= ntl n)%nat ->
  ncontent (mkNode (nbuf n) (nhd n + k) (ntl n)) = skipn k (ncontent n).
Proof.
  intros. unfold ncontent. cbn [nhd ntl nbuf]. rewrite !range_as_prefix, skipn_skipn_add. f_equal. lia.
Qed.

Lemma node_clear_content : forall n, ncontent (node_clear n) = [].
Proof. reflexivity. Qed.

(* ------------------------------------------------ cleanup *)
Lemma size0_content : forall n, node_size n = 0%nat -> ncontent n = [].
Proof. intros. unfold ncontent, node_size in *. rewrite H. reflexivity. Qed.

Lemma cleanup_single : forall t, ninv t -> (0 < length (nbuf t))%nat -> nodes_inv (cleanup [t]) /\ ncontents (cleanup [t]) = ncontents [t].
Proof.
  intros t H H0. cbn [cleanup]. destruct (Nat.eqb_spec (node_size t) 0).
  - split. { cbn. unfold tinv, ninv, node_clear. simpl. lia. }
    cbn. rewrite (size0_content t) by auto. reflexivity.
  - split; auto. unfold nodes_inv, tinv, ninv, node_size in *. lia.
Qed.

Lemma cleanup_noop : forall n rest, rest <> [] -> nfull n -> cleanup (n :: rest) = n :: rest.
Proof.
  intros n rest Hr [H1 H2]. destruct rest; [congruence|]. cbn [cleanup].
  unfold node_usedup, node_max, node_size.
  destruct (Nat.eqb_spec (nhd n) (length (nbuf n))); [lia|].
  destruct (Nat.eqb_spec (ntl n - nhd n) 0); [lia|]. reflexivity.
Qed.

Lemma cleanup_inv : forall l, nodes_inv l -> nodes_inv (cleanup l) /\ ncontents (cleanup l) = ncontents l.
Proof.
  intros l H. destruct l as [|n [|m r]]; [simpl in H; tauto| apply cleanup_single; destruct H; auto; lia|].
  rewrite cleanup_noop; auto; try discriminate. apply H.
Qed.

Lemma cleanup_used : forall n rest, rest <> [] -> nhd n = length (nbuf n) -> cleanup (n :: rest) = cleanup rest.
Proof.
  intros n rest Hr H. destruct rest; [congruence|]. cbn [cleanup]. unfold node_usedup, node_max.
  rewrite H, Nat.eqb_refl. reflexivity.
Qed.

(* ------------------------------------------------ transfer *)
Lemma take_all : forall n l, Z.of_nat (length l) <= n -> take n l = l.
Proof. intros. unfold take. apply firstn_all2. lia. Qed.
Lemma drop_all : forall n l, Z.of_nat (length l) <= n -> drop n l = [].
Proof. intros. unfold drop. apply skipn_all2. lia. Qed.
Lemma take_length : forall n l, 0 <= n -> Z.of_nat (length (take n l)) = Z.min n (Z.of_nat (length l)).
Proof. intros. unfold take. rewrite firstn_length. lia. Qed.
Lemma drop_length : forall n l, 0 <= n -> Z.of_nat (length (drop n l)) = Z.max 0 (Z.of_nat (length l) - n).
Proof. intros. unfold drop. rewrite skipn_length. lia. Qed.
Lemma take_app : forall n a b, 0 <= n -> take n (a ++ b) = take n a ++ take (n - Z.of_nat (length a)) b.
Proof. intros. unfold take. rewrite firstn_app. do 2 f_equal. lia. Qed.
Lemma drop_app : forall n a b, 0 <= n -> drop n (a ++ b) = drop n a ++ drop (n - Z.of_nat (length a)) b.
Proof. intros. unfold drop. rewrite skipn_app. do 2 f_equal. lia. Qed.
Lemma take_0 : forall l, take 0 l = [].
Proof. reflexivity. Qed.
Lemma drop_0 : forall l, drop 0 l = l.
Proof. reflexivity. Qed.
Lemma take_neg : forall n l, n <= 0 -> take n l = [].
Proof. intros. unfold take. replace (Z.to_nat n) with 0%nat by lia. reflexivity. Qed.
Lemma drop_neg : forall n l, n <= 0 -> drop n l = l.
Proof. intros. unfold drop. replace (Z.to_nat n) with 0%nat by lia. reflexivity. Qed.

Lemma node_transfer_spec : forall n m n' out, ninv n -> 0 <= m -> node_transfer n m = (n', out) ->
  out = take m (ncontent n) /\ ncontent n' = drop m (ncontent n) /\ ninv n' /\
  nbuf n' = nbuf n /\ ntl n' = ntl n /\ nhd n' = (nhd n + length out)%nat.
Proof.
  intros n m n' out H Hm E. unfold node_transfer in E. inversion E; clear E. subst n'.
  set (len := Z.to_nat (Z.min (Z.of_nat (node_size n)) m)) in *.
  assert (Hl : (len <= node_size n)%nat) by lia.
  assert (Ho : out = take m (ncontent n)).
  { subst out. unfold node_bytes, take, ncontent. rewrite Nat.add_0_r, firstn_firstn.
    unfold ninv, node_size in *. f_equal. lia. }
  assert (Hol : length out = len).
  { rewrite Ho. apply Nat2Z.inj. rewrite take_length, ncontent_length; auto. lia. }
  rewrite H2, Hol. unfold ninv, node_size in *. cbn [nbuf ntl nhd]. repeat split; auto; try lia.
  rewrite advance_content by lia. unfold drop.
  destruct (Z.le_ge_cases m (Z.of_nat (ntl n - nhd n))).
  - f_equal. lia.
  - rewrite !skipn_all2; auto; rewrite ncontent_length; unfold ninv, node_size; try lia.
Qed.

Lemma transfer_nodes_spec : forall l m l' out lft, nodes_inv l -> 0 <= m ->
  transfer_nodes l m = (l', out, lft) ->
  out = take m (ncontents l) /\ lft = m - Z.of_nat (length out) /\
  l' <> [] /\ nodes_inv (cleanup l') /\ ncontents (cleanup l') = drop m (ncontents l).
Proof.
  induction l as [|n rest IH]; intros m l' out lft Hi Hm E; [simpl in Hi; tauto|].
  cbn [transfer_nodes] in E.
  destruct (Z.eqb_spec m 0) as [->|Hz].
  { inversion E; subst. rewrite take_0, drop_0. repeat split; auto; try discriminate; apply cleanup_inv; auto. }
  destruct (node_transfer n m) as [n' o1] eqn:En.
  destruct (transfer_nodes rest (m - Z.of_nat (length o1))) as [[r' o2] lf] eqn:Er.
  inversion E; subst l' out lft; clear E.
  destruct (node_transfer_spec n m n' o1) as (Ho & Hc & Hn' & Hb & Ht & Hh); auto.
  { apply nodes_inv_Forall in Hi. inversion Hi; auto. }
  assert (Hni : ninv n) by (apply nodes_inv_Forall in Hi; inversion Hi; auto).
  assert (Hol : Z.of_nat (length o1) = Z.min m (Z.of_nat (length (ncontent n)))) by (rewrite Ho; apply take_length; auto).
  rewrite ncontents_cons, take_app, drop_app by auto.
  destruct rest as [|n2 rest2].
  - cbn [transfer_nodes] in Er. inversion Er; subst. rewrite app_nil_r.
    replace (take (m - Z.of_nat (length (ncontent n))) (ncontents [])) with (@nil Z) by (unfold take; rewrite firstn_nil; auto).
    replace (drop (m - Z.of_nat (length (ncontent n))) (ncontents [])) with (@nil Z) by (unfold drop; rewrite skipn_nil; auto).
    rewrite !app_nil_r. split; [auto|]. split; [lia|]. split; [discriminate|].
    destruct (cleanup_single n' Hn') as [A B]. { rewrite Hb. destruct Hi. lia. } split; auto. rewrite B. cbn. rewrite app_nil_r. auto.
  - assert (Hrn : n2 :: rest2 <> []) by discriminate.
    apply nodes_inv_cons in Hi; auto. destruct Hi as [Hf Hr].
    destruct (IH (m - Z.of_nat (length o1)) r' o2 lf Hr ltac:(lia) Er) as (E2 & E3 & E4 & E5 & E6).
    assert (Hsz : length (ncontent n) = node_size n) by (apply ncontent_length; auto).
    assert (Q : m - Z.of_nat (length o1) = Z.max 0 (m - Z.of_nat (length (ncontent n)))) by lia.
    split; [|split; [|split; [|]]].
    + rewrite E2, Ho at 1. f_equal.
      destruct (Z.le_ge_cases m (Z.of_nat (length (ncontent n)))).
      * rewrite (take_neg (m - _)) by lia. rewrite take_neg; auto. lia.
      * f_equal. lia.
    + rewrite app_length. lia.
    + discriminate.
    + destruct (Z.le_gt_cases (Z.of_nat (length (ncontent n))) m) as [G|L].
      * rewrite cleanup_used; auto.
        2:{ unfold nfull, node_size in *. rewrite Hb. lia. }
        split; auto. rewrite E6, (drop_all m (ncontent n)) by lia. cbn [app]. f_equal. lia.
      * assert (m - Z.of_nat (length o1) = 0) by lia. rewrite H in Er. cbn in Er. inversion Er; subst r' o2 lf.
        rewrite cleanup_noop; auto.
        2:{ unfold nfull, node_size in *. rewrite Hb, Ht. split; [tauto|lia]. }
        split.
        { apply nodes_inv_cons; auto. split; auto. unfold nfull, node_size in *. rewrite Hb, Ht. split; [tauto|lia]. }
        rewrite ncontents_cons, Hc, (drop_neg (m - Z.of_nat (length (ncontent n)))) by lia. reflexivity.
Qed.

Lemma min_app_length : forall (a b : list Z) n, 0 <= n ->
  Nat.min (length b) (length (drop n (a ++ b))) = length (drop (n - Z.of_nat (length a)) b).
Proof.
  intros. rewrite drop_app, app_length by auto. unfold drop. rewrite !skipn_length. lia.
Qed.

Lemma q_transfer_spec : forall q n q' out tb, qinv q -> 0 <= n -> q_transfer q n = (q', out, tb) ->
  qinv q' /\ out = take n (qcontent q) /\ tb = Z.of_nat (length out) /\ qabs q' = removed (qabs q) n.
Proof.
  intros q n q' out tb [Hi Hs] Hn E. unfold q_transfer in E.
  destruct (transfer_nodes (qnodes q) n) as [[n1 o1] lft] eqn:Et.
  destruct (transfer_nodes_spec _ _ _ _ _ Hi Hn Et) as (E1 & E2 & E3 & E4 & E5).
  inversion E; clear E. subst q'.
  set (len := Z.to_nat (Z.min lft (Z.of_nat (length (qlazy q))))) in *.
  assert (Hol : Z.of_nat (length o1) = Z.min n (Z.of_nat (length (ncontents (qnodes q))))) by (rewrite E1; apply take_length; auto).
  assert (Hf : firstn len (qlazy q) = take (n - Z.of_nat (length (ncontents (qnodes q)))) (qlazy q)).
  { unfold take. destruct (Z.le_ge_cases lft (Z.of_nat (length (qlazy q)))).
    - f_equal. lia.
    - rewrite !firstn_all2; auto; lia. }
  assert (Hk : skipn len (qlazy q) = drop (n - Z.of_nat (length (ncontents (qnodes q)))) (qlazy q)).
  { unfold drop. destruct (Z.le_ge_cases lft (Z.of_nat (length (qlazy q)))).
    - f_equal. lia.
    - rewrite !skipn_all2; auto; lia. }
  split; [split; auto|]. split; [|split].
  - unfold qcontent. rewrite take_app, Hf, E1 by auto. reflexivity.
  - rewrite app_length, firstn_length. lia.
  - unfold removed, qabs. cbn [content undoable]. unfold qcontent at 1 2 3. cbn [qnodes qlazy].
    rewrite min_app_length by auto. rewrite E5, Hk, drop_app by auto. reflexivity.
Qed.

(* ------------------------------------------------ walker *)
Definition wcontent (w : walker) : list Z := skipn (woff w) (ncontents (wnodes w)) ++ wlazy w.
Definition winv (w : walker) : Prop :=
  Forall ninv (wnodes w) /\
  match wnodes w with [] => woff w = 0%nat | n :: _ => (woff w <= node_size n)%nat end.

Lemma w_new_inv : forall q, qinv q -> winv (w_new q).
Proof.
  intros q [H _]. split. { apply nodes_inv_Forall; auto. } cbn. destruct (qnodes q); auto. lia.
Qed.
Lemma w_new_content : forall q, wcontent (w_new q) = qcontent q.
Proof. reflexivity. Qed.

Lemma node_bytes_content : forall n off len, (off + len <= node_size n)%nat ->
  node_bytes n off len = firstn len (skipn off (ncontent n)).
Proof.
  intros. unfold node_bytes, ncontent. rewrite range_as_prefix, skipn_skipn_add.
  rewrite skipn_firstn_comm, firstn_firstn. unfold node_size in *.
  f_equal; [lia|]. f_equal. lia.
Qed.

Lemma w_loop_spec : forall l pos off m k l' p o out lft k' d,
  Forall ninv l -> (match l with [] => off = 0%nat | n :: _ => (off <= node_size n)%nat end) -> 0 <= m ->
  w_loop l pos off m k = (l', p, o, out, lft, k', d) ->
  exists t, 0 <= t <= m /\ out = take t (skipn off (ncontents l)) /\ lft = m - Z.of_nat (length out) /\
    p = pos + Z.of_nat (length out) /\
    Forall ninv l' /\ (match l' with [] => o = 0%nat | n :: _ => (o <= node_size n)%nat end) /\
    skipn o (ncontents l') = drop t (skipn off (ncontents l)) /\
    (k = None -> t = m /\ k' = None) /\
    (d = false -> l' = [] /\ t = m) /\
    (d = true -> k = None -> lft = 0).
Proof.
  induction l as [|n rest IH]; intros pos off m k l' p o out lft k' d Hi Ho Hm E.
  - cbn [w_loop] in E. exists m. inversion E; subst. clear E.
    assert (skipn 0 (ncontents []) = @nil Z) by reflexivity. rewrite H.
    replace (take lft []) with (@nil Z) by (unfold take; rewrite firstn_nil; auto).
    replace (drop lft []) with (@nil Z) by (unfold drop; rewrite skipn_nil; auto).
    cbn [length]. repeat split; auto; try lia; try discriminate.
  - cbn [w_loop] in E. inversion Hi as [|? ? Hn Hr]; subst.
    set (len := Z.to_nat (Z.min m (Z.of_nat (node_size n - off)))) in *.
    destruct (t_put k) as [k1|] eqn:Ek.
    2:{ assert (Hkn : k <> None) by (intros ->; discriminate Ek).
        inversion E; subst. exists 0. rewrite take_0, drop_0. cbn [length].
        repeat split; auto; try lia; try discriminate; intros; exfalso; congruence. }
    assert (Hk : k = None -> k1 = None) by (intros ->; cbn in Ek; congruence).
    pose proof (ncontent_length n Hn) as Hcl.
    assert (Hout : node_bytes n off len = firstn len (skipn off (ncontent n)))
      by (apply node_bytes_content; lia).
    assert (Hsk : skipn off (ncontents (n :: rest)) = skipn off (ncontent n) ++ ncontents rest).
    { rewrite ncontents_cons, skipn_app_le by lia. reflexivity. }
    assert (Hlen : length (node_bytes n off len) = len).
    { rewrite Hout, firstn_length, skipn_length. lia. }
    destruct (Z.eqb_spec (m - Z.of_nat len) 0) as [Hz|Hz].
    + inversion E; subst. exists m. rewrite Hlen.
      assert (Z.to_nat m = len) by lia.
      rewrite Hsk. unfold take, drop. rewrite H, Hout.
      assert (len <= length (skipn off (ncontent n)))%nat by (rewrite skipn_length; lia).
      rewrite firstn_app_le by auto. split; [lia|]. repeat (split; [solve [auto | lia]|]).
      split.
      { rewrite skipn_app_le by auto. rewrite skipn_skipn_add.
        rewrite ncontents_cons, skipn_app_le by lia. do 2 f_equal. lia. }
      split; [intros; split; auto|]. split; [discriminate|lia].
    + destruct (w_loop rest (pos + Z.of_nat len) 0 (m - Z.of_nat len) k1) as [[[[[[r p'] o'] out'] lf] k''] d'] eqn:El.
      inversion E; subst l' p o out lft k' d; clear E.
      assert (Hall : len = (node_size n - off)%nat) by lia.
      edestruct IH as (t & T1 & T2 & T3 & T3p & T4 & T5 & T6 & T7 & T8 & T9); [exact Hr| |  |exact El|].
      { destruct rest; auto. lia. } { lia. }
      assert (Hsl : length (skipn off (ncontent n)) = len) by (rewrite skipn_length; lia).
      exists (t + Z.of_nat len). rewrite Hsk, take_app, drop_app by lia. rewrite Hsl.
      replace (t + Z.of_nat len - Z.of_nat len) with t by lia.
      rewrite take_all, drop_all by lia.
      rewrite Hout. rewrite (firstn_all2 (skipn off (ncontent n))) by lia.
      cbn [skipn] in *. rewrite app_length, Hsl.
      split; [lia|]. split; [rewrite T2; auto|]. split; [lia|]. split; [lia|].
      repeat (split; [solve [auto]|]).
      split. { intros K. destruct (T7 (Hk K)). split; auto; lia. }
      split. { intros K. destruct (T8 K). split; auto; lia. }
      intros K1 K2. apply T9; auto.
Qed.

Lemma w_transfer_spec : forall w n k w' out tb, winv w -> 0 <= n -> w_transfer w n k = (w', out, tb) ->
  exists t, 0 <= t <= n /\ out = take t (wcontent w) /\ tb = Z.of_nat (length out) /\ winv w' /\
    wcontent w' = drop t (wcontent w) /\ (k = None -> t = n).
Proof.
  intros w n k w' out tb [Hi Ho] Hn E. unfold w_transfer in E.
  destruct (w_loop (wnodes w) (wpos w) (woff w) n k) as [[[[[[r p] o] o1] lft] k'] d] eqn:El.
  destruct (w_loop_spec _ _ _ _ _ _ _ _ _ _ _ _ Hi Ho Hn El)
    as (t & T1 & T2 & T3 & T3p & T4 & T5 & T6 & T7 & T8 & T9).
  assert (Hlen : Z.of_nat (length o1) = Z.min t (Z.of_nat (length (skipn (woff w) (ncontents (wnodes w))))))
    by (rewrite T2; apply take_length; lia).
  (* a result that leaves the lazy string alone *)
  assert (Hstop : (k = None -> t = n) -> (t <= Z.of_nat (length (skipn (woff w) (ncontents (wnodes w)))) \/ wlazy w = []) ->
     (mkW r p o (wlazy w) (wqueue w), o1, n - lft) = (w', out, tb) ->
     exists t, 0 <= t <= n /\ out = take t (wcontent w) /\ tb = Z.of_nat (length out) /\ winv w' /\
     wcontent w' = drop t (wcontent w) /\ (k = None -> t = n)).
  { intros Hk Hc E'. inversion E'; subst w' out tb. exists t. split; [auto|].
    unfold wcontent. cbn [wnodes woff wlazy].
    rewrite take_app, drop_app, <- T2, T6 by lia.
    assert (take (t - Z.of_nat (length (skipn (woff w) (ncontents (wnodes w))))) (wlazy w) = []).
    { destruct Hc as [Hc| ->]. apply take_neg; lia. unfold take. apply firstn_nil. }
    assert (drop (t - Z.of_nat (length (skipn (woff w) (ncontents (wnodes w))))) (wlazy w) = wlazy w).
    { destruct Hc as [Hc| ->]. apply drop_neg; lia. unfold drop. apply skipn_nil. }
    rewrite H, H0, app_nil_r.
    repeat (split; [solve [auto | lia]|]). split; [split; auto|]. auto. }
  assert (Hsame : forall a, skipn (woff w) (ncontents (wnodes w)) = a -> Z.of_nat (length (drop t a)) = Z.max 0 (Z.of_nat (length a) - t)).
  { intros. apply drop_length. lia. }
  destruct d.
  - destruct k as [j|].
    + (* finite target: choose t' = bytes delivered *)
      destruct (Z.le_gt_cases t (Z.of_nat (length (skipn (woff w) (ncontents (wnodes w)))))) as [L|G].
      { apply Hstop; auto; discriminate. }
      inversion E; subst w' out tb. exists (Z.of_nat (length o1)).
      set (a := skipn (woff w) (ncontents (wnodes w))) in *.
      unfold wcontent. cbn [wnodes woff wlazy]. fold a. rewrite T6.
      rewrite take_app, drop_app by lia.
      rewrite (take_neg (_ - _)), (drop_neg (_ - _)) by lia.
      rewrite (take_all _ a), (drop_all _ a), (drop_all _ a), app_nil_r by lia.
      rewrite T2, take_all by lia.
      split; [lia|]. split; [auto|]. split; [rewrite T2, take_all in T3 by lia; lia|].
      split; [split; auto|]. split; [auto|discriminate].
    + apply Hstop; auto.
      * intros _. destruct (T7 eq_refl); auto.
      * destruct (T7 eq_refl). assert (lft = 0) by auto. lia.
  - destruct (T8 eq_refl) as [-> ->].
    destruct (negb (lft =? 0) && negb (Nat.eqb (length (wlazy w)) 0)) eqn:Ec.
    + apply andb_true_iff in Ec. destruct Ec as [Ec1 Ec2].
      rewrite negb_true_iff in Ec1, Ec2. apply Z.eqb_neq in Ec1. apply Nat.eqb_neq in Ec2.
      set (a := skipn (woff w) (ncontents (wnodes w))) in *.
      set (len := Z.to_nat (Z.min lft (Z.of_nat (length (wlazy w))))) in *.
      assert (Hoe : o = 0%nat) by auto. subst o.
      destruct (t_put k') as [k2|] eqn:Ek.
      * inversion E; subst w' out tb. exists n. unfold wcontent. cbn [wnodes woff wlazy]. fold a.
        rewrite take_app, drop_app, <- T2, <- T6 by auto.
        assert (firstn len (wlazy w) = take (n - Z.of_nat (length a)) (wlazy w)).
        { unfold take. destruct (Z.le_ge_cases lft (Z.of_nat (length (wlazy w)))).
          - f_equal. lia. - rewrite !firstn_all2; auto; lia. }
        assert (skipn len (wlazy w) = drop (n - Z.of_nat (length a)) (wlazy w)).
        { unfold drop. destruct (Z.le_ge_cases lft (Z.of_nat (length (wlazy w)))).
          - f_equal. lia. - rewrite !skipn_all2; auto; lia. }
        rewrite H, H0. split; [lia|]. split; [auto|]. split; [|split; [split; cbn; auto|split; auto]].
        rewrite <- H, app_length, firstn_length. lia.
      * inversion E; subst w' out tb. exists (Z.of_nat (length o1)). unfold wcontent. cbn [wnodes woff wlazy]. fold a.
        rewrite take_app, drop_app, T6 by lia.
        rewrite (take_neg (_ - _)), (drop_neg (_ - _)) by lia.
        assert (Z.of_nat (length o1) = Z.of_nat (length a)) by lia.
        rewrite (take_all _ a), !(drop_all _ a), app_nil_r by lia.
        rewrite T2, take_all by lia.
        split; [lia|]. split; auto. split; [rewrite T2, take_all in T3 by lia; lia|].
        split; [split; cbn; auto|]. split; [auto|].
        intros ->. destruct (T7 eq_refl) as [_ ->]. discriminate.
    + apply Hstop; auto.
      apply andb_false_iff in Ec. destruct Ec as [Ec|Ec]; apply negb_false_iff in Ec.
      * apply Z.eqb_eq in Ec. lia.
      * apply Nat.eqb_eq in Ec. right. destruct (wlazy w); simpl in Ec; congruence || lia.
Qed.

Lemma q_transfer_nb_spec : forall q n k q' out tb, qinv q -> 0 <= n -> q_transfer_nb q n k = (q', out, tb) ->
  exists m, 0 <= m <= n /\ (k = None -> m = n) /\ qinv q' /\ out = take m (qcontent q) /\
    tb = Z.of_nat (length out) /\ qabs q' = removed (qabs q) m.
Proof.
  intros q n k q' out tb Hi Hn E. unfold q_transfer_nb in E.
  destruct (w_transfer (w_new q) n k) as [[w1 o1] t1] eqn:Ew.
  destruct (w_transfer_spec _ _ _ _ _ _ (w_new_inv q Hi) Hn Ew) as (m & M1 & M2 & M3 & M4 & M5 & M6).
  destruct (q_transfer q t1) as [[q1 o2] t2] eqn:Eq. injection E as -> -> ->.
  rewrite w_new_content in *.
  assert (Hol : Z.of_nat (length out) = Z.min m (Z.of_nat (length (qcontent q)))) by (rewrite M2; apply take_length; lia).
  assert (Ht0 : 0 <= tb) by lia.
  destruct (q_transfer_spec _ _ _ _ _ Hi Ht0 Eq) as (Q1 & Q2 & Q3 & Q4).
  exists m. repeat split; auto; try lia; try apply Q1.
  rewrite Q4. unfold removed. cbn [qabs content undoable].
  assert (drop tb (qcontent q) = drop m (qcontent q)) as ->; auto.
  destruct (Z.le_ge_cases m (Z.of_nat (length (qcontent q)))).
  - f_equal. lia.
  - rewrite !drop_all; auto; lia.
Qed.

Lemma lmod_small : forall x, lword x -> lmod x = x.
Proof. intros. unfold lmod, lword in *. apply Z.mod_small; auto. Qed.

Lemma lmod_range : forall x, lword (lmod x).
Proof. intros. unfold lmod, lword. apply Z.mod_pos_bound. lia. Qed.

Lemma q_copyrange2_spec : forall q b e, qinv q -> 0 <= b ->
  q_copyrange2 q b e = (take (lmod (e - b)) (drop b (qcontent q)),
     lmod (b + Z.of_nat (length (take (lmod (e - b)) (drop b (qcontent q)))))).
Proof.
  intros q b e Hi Hb. unfold q_copyrange2.
  destruct (w_transfer (w_new q) b None) as [[w1 o1] t1] eqn:E1.
  destruct (w_transfer_spec _ _ _ _ _ _ (w_new_inv q Hi) Hb E1) as (m & M1 & M2 & M3 & M4 & M5 & M6).
  destruct (w_transfer w1 (lmod (e - b)) None) as [[w2 o2] t2] eqn:E2.
  destruct (w_transfer_spec _ _ _ _ _ _ M4 (proj1 (lmod_range _)) E2) as (j & J1 & J2 & J3 & J4 & J5 & J6).
  rewrite M6, w_new_content in M5 by auto. rewrite J6, M5 in J2 by auto. subst o2 t2. reflexivity.
Qed.

Lemma lmod_sub : forall p x, lmod (lmod (p + x) - p) = lmod x.
Proof.
  intros. unfold lmod. rewrite Zminus_mod_idemp_l. f_equal. lia.
Qed.

Lemma q_copyrange_spec : forall q p m, qinv q -> lword p -> lword m ->
  q_copyrange q p m = (take m (drop p (qcontent q)), Z.of_nat (length (take m (drop p (qcontent q))))).
Proof.
  intros q p m Hi Hp Hm. unfold q_copyrange. rewrite q_copyrange2_spec by (auto; apply Hp).
  rewrite !lmod_sub. rewrite (lmod_small m) by auto.
  rewrite (lmod_small (Z.of_nat _)); auto.
  unfold lword in *. rewrite take_length by lia. lia.
Qed.

(* ------------------------------------------------ observers *)
Lemma q_size_spec : forall q, qinv q -> q_size q = Z.of_nat (length (qcontent q)).
Proof.
  intros q [Hi _]. unfold q_size, qcontent. rewrite app_length, Nat2Z.inj_add. f_equal.
  apply nodes_inv_Forall in Hi. 
  assert (G : forall l s, Forall ninv l -> fold_left (fun s n => s + Z.of_nat (node_size n)) l s
     = s + Z.of_nat (length (ncontents l))).
  { induction l; intros s H; cbn [fold_left].
    - cbn. lia.
    - inversion H; subst. rewrite IHl, ncontents_cons, app_length, ncontent_length by auto. lia. }
  rewrite G; auto.
Qed.

Lemma qcontent_head : forall q, qinv q -> qcontent q = ncontent (qhead q) ++ ncontents (tl (qnodes q)) ++ qlazy q.
Proof. intros q H. unfold qcontent. rewrite (qnodes_head q H) at 1. rewrite ncontents_cons, <- app_assoc. reflexivity. Qed.

Lemma qcontent_head_empty : forall q, qinv q -> ncontent (qhead q) = [] -> qcontent q = qlazy q.
Proof.
  intros q H E. unfold qcontent. rewrite (head_empty_single q H E). cbn. rewrite E. reflexivity.
Qed.

Lemma q_isempty_spec : forall q, qinv q -> q_isempty q = Nat.eqb (length (qcontent q)) 0.
Proof.
  intros q H. unfold q_isempty. pose proof (qhead_ninv q H) as Hh. pose proof (ncontent_length _ Hh) as Hl.
  destruct (Nat.eqb_spec (node_size (qhead q)) 0) as [E|E].
  - assert (ncontent (qhead q) = []) by (apply size0_content; auto).
    rewrite (head_empty_single q H) at 1 by auto. cbn [length Nat.eqb andb].
    rewrite (qcontent_head_empty q H); auto.
  - rewrite andb_false_r, andb_false_l. symmetry. apply Nat.eqb_neq.
    rewrite qcontent_head, app_length by auto. lia.
Qed.

Lemma hd_error_app : forall (a b : list Z), hd_error (a ++ b) = match hd_error a with Some x => Some x | None => hd_error b end.
Proof. destruct a; reflexivity. Qed.

Lemma q_peekbyte_spec : forall q, qinv q -> q_peekbyte q = hd_error (qcontent q).
Proof.
  intros q H. unfold q_peekbyte. rewrite node_peek_content by (apply qhead_ninv; auto).
  destruct (ncontent (qhead q)) eqn:E.
  - rewrite (qcontent_head_empty q H E). cbn. destruct (qlazy q); reflexivity.
  - rewrite qcontent_head, E by auto. reflexivity.
Qed.

Lemma set_head_inv : forall q n, qinv q -> nodes_inv (n :: tl (qnodes q)) -> qinv (set_head q n).
Proof. intros q n [_ H2] H. split; auto. Qed.

Lemma q_getbyte_spec : forall q q' r, qinv q -> q_getbyte q = (q', r) ->
  qinv q' /\ r = hd_error (qcontent q) /\ qabs q' = removed (qabs q) 1.
Proof.
  intros q q' r H E. unfold q_getbyte, node_get in E.
  pose proof (qhead_ninv q H) as Hh. pose proof (ncontent_length _ Hh) as Hl.
  rewrite node_peek_content in E by auto.
  destruct (ncontent (qhead q)) as [|b c] eqn:Ec.
  - cbn [hd_error] in E. pose proof (qcontent_head_empty q H Ec) as Hq.
    assert (Hn : ncontents (qnodes q) = []).
    { rewrite (head_empty_single q H Ec). cbn. rewrite Ec. reflexivity. }
    destruct (qlazy q) as [|b rr] eqn:El.
    + inversion E; subst. rewrite Hq. repeat split; auto; try apply H.
      unfold removed, qabs. cbn [content undoable]. rewrite Hq, El. reflexivity.
    + inversion E; subst. rewrite Hq. repeat split; auto; try apply H.
      unfold removed, qabs. cbn [content undoable]. rewrite Hq, El.
      unfold qcontent. cbn [qnodes qlazy]. rewrite Hn.
      change (drop 1 (b :: rr)) with rr. cbn [app length]. f_equal. lia.
  - cbn [hd_error] in E.
    set (n := mkNode (nbuf (qhead q)) (S (nhd (qhead q))) (ntl (qhead q))) in *.
    assert (Hsz : (0 < node_size (qhead q))%nat) by (rewrite <- Hl; simpl; lia).
    assert (Hnc : ncontent n = c).
    { subst n. unfold node_size in Hsz. rewrite <- Nat.add_1_r, advance_content by lia. rewrite Ec. reflexivity. }
    assert (Hni : ninv n) by (subst n; unfold ninv, node_size in *; cbn; lia).
    pose proof (qnodes_head q H) as En. pose proof H as [Hn Hs]. rewrite En in Hn.
    assert (Hr : r = Some b) by (destruct (node_usedup n); inversion E; auto). subst r.
    assert (Habs : forall nodes, nodes_inv nodes -> ncontents nodes = ncontents (n :: tl (qnodes q)) ->
      let q2 := mkQ nodes (qlazy q) (qnsize q) (qlazymod q) (qauto q) in
      qinv q2 /\ Some b = hd_error (qcontent q) /\ qabs q2 = removed (qabs q) 1).
    { intros nodes N1 N2 q2. split; [split; auto|]. split; [rewrite qcontent_head, Ec by auto; reflexivity|].
      assert (drop 1 (qcontent q) = qcontent q2).
      { rewrite qcontent_head, Ec by auto. unfold qcontent.
        change (ncontents (qnodes q2)) with (ncontents nodes). change (qlazy q2) with (qlazy q).
        rewrite N2, ncontents_cons, Hnc, <- app_assoc. reflexivity. }
      unfold removed, qabs. cbn [content undoable]. rewrite H0. f_equal. subst q2. cbn [qlazy].
      unfold qcontent. cbn [qnodes qlazy]. rewrite app_length. lia. }
    destruct (node_usedup n) eqn:Eu.
    + inversion E; subst q'. unfold set_nodes, set_head. cbn [qnodes qlazy qnsize qlazymod qauto].
      unfold node_usedup in Eu. apply Nat.eqb_eq in Eu.
      assert (HH : nodes_inv (cleanup (n :: tl (qnodes q))) /\
                   ncontents (cleanup (n :: tl (qnodes q))) = ncontents (n :: tl (qnodes q))).
      { destruct (tl (qnodes q)) as [|m rest] eqn:Etl.
        - apply cleanup_single; auto. destruct Hn as [_ Hn]. subst n. cbn [nbuf]. lia.
        - rewrite cleanup_used; try discriminate; auto.
          assert (nodes_inv (m :: rest)) by apply Hn.
          destruct (cleanup_inv _ H0). split; auto. rewrite H2.
          rewrite (ncontents_cons n), (size0_content n). reflexivity.
          unfold node_size, ninv, node_max in *. lia. }
      apply Habs; tauto.
    + inversion E; subst q'. apply Habs; auto.
      assert (Hlt : (nhd n < length (nbuf n))%nat).
      { unfold node_usedup, node_max in Eu. apply Nat.eqb_neq in Eu. unfold ninv in Hni. lia. }
      destruct (tl (qnodes q)) eqn:Etl. { split; auto. } destruct Hn as [Hf Hrest]. split; auto.
      unfold nfull in *. subst n. cbn [ntl nbuf nhd]. split; [tauto|].
      unfold node_usedup, node_max in Eu. cbn [ntl nbuf nhd] in Eu. apply Nat.eqb_neq in Eu. lia.
Qed.

Lemma q_unget_spec : forall q d, qinv q -> qinv (q_unget q d) /\
  qabs (q_unget q d) = mkA (d ++ qcontent q) (length (qlazy q)).
Proof.
  intros q d H. unfold q_unget. pose proof (qhead_ninv q H) as Hh.
  pose proof (qnodes_head q H) as En. pose proof H as [Hn Hs]. rewrite En in Hn.
  set (h := qhead q) in *.
  set (len := Nat.min (length d) (nhd h)) in *. set (rest := (length d - len)%nat) in *.
  set (h' := mkNode (blit (nhd h - len) (skipn rest d) (nbuf h)) (nhd h - len) (ntl h)).
  assert (Hsl : length (skipn rest d) = len) by (rewrite skipn_length; lia).
  assert (Hbl : length (blit (nhd h - len) (skipn rest d) (nbuf h)) = length (nbuf h))
    by (apply blit_length; unfold ninv in *; lia).
  assert (Hi' : ninv h') by (unfold ninv, h' in *; cbn; rewrite Hbl; lia).
  assert (Hc' : ncontent h' = skipn rest d ++ ncontent h).
  { unfold ncontent, h'. cbn [ntl nhd nbuf]. unfold blit, ninv in *.
    rewrite skipn_app_ge by (rewrite firstn_length; lia).
    rewrite firstn_length_le' by lia. rewrite Nat.sub_diag. cbn [skipn].
    rewrite firstn_app_ge by lia. f_equal. f_equal; [lia|f_equal; lia]. }
  assert (Hn' : nodes_inv (h' :: tl (qnodes q))).
  { destruct (tl (qnodes q)). { destruct Hn. split; auto. subst h'. cbn [nhd nbuf]. rewrite Hbl. lia. }
    destruct Hn as [Hf Hr]. split; auto.
    unfold nfull, h' in *. cbn [ntl nbuf nhd]. rewrite Hbl. lia. }
  destruct (Nat.ltb_spec 0 rest) as [L|L].
  - destruct (node_put (node_new rest) (firstn rest d)) as [nn k] eqn:Ep.
    destruct (node_put_spec _ _ _ _ (node_new_inv rest) Ep) as (P1 & P2 & P3 & P4 & P5 & P6).
    rewrite node_new_max in *. cbn [node_new ntl nhd] in *.
    assert (k = rest) by (rewrite firstn_length in P1; lia). subst k.
    cbn [fst]. split.
    + split; auto. unfold set_nodes, set_head. cbn [qnodes]. split; auto.
      unfold nfull. rewrite P4, P5. unfold node_max in P6. lia.
    + unfold qabs, qcontent, set_nodes, set_head. cbn [qnodes qlazy]. f_equal.
      rewrite !ncontents_cons, P3, Hc', node_new_content. cbn [app].
      rewrite (firstn_all2 (firstn rest d)) by (rewrite firstn_length; lia).
      rewrite En at 2. rewrite ncontents_cons. rewrite !app_assoc. rewrite firstn_skipn. reflexivity.
  - assert (Er : rest = 0%nat) by lia. split.
    + apply set_head_inv; auto.
    + unfold qabs, qcontent, set_head. cbn [qnodes qlazy]. f_equal.
      rewrite !ncontents_cons, Hc', Er. cbn [skipn]. rewrite En at 2. rewrite ncontents_cons, !app_assoc. reflexivity.
Qed.

Lemma qhead_pos : forall q, qinv q -> (0 < length (nbuf (qhead q)))%nat.
Proof.
  intros q H. pose proof (qnodes_head q H) as En. pose proof H as [Hn _]. rewrite En in Hn.
  destruct (tl (qnodes q)); destruct Hn as [Hn ?]; unfold nfull in *; lia.
Qed.

Lemma q_clear_spec : forall q, qinv q -> qinv (q_clear q) /\ qabs (q_clear q) = mkA [] 0.
Proof.
  intros q H. pose proof (qhead_pos q H). destruct H as [_ H]. unfold q_clear, qinv, qabs, qcontent.
  split; [|reflexivity]. cbn. unfold tinv, ninv. cbn. repeat split; auto; lia.
Qed.

Lemma q_spy_spec : forall q, qinv q -> exists n, q_spy q = take n (qcontent q) /\ 0 <= n /\ (qcontent q <> [] -> 0 < n).
Proof.
  intros q H. unfold q_spy. pose proof (qhead_ninv q H) as Hh. pose proof (ncontent_length _ Hh) as Hl.
  assert (Hb : node_bytes (qhead q) 0 (node_size (qhead q)) = ncontent (qhead q)).
  { rewrite node_bytes_content by lia. cbn [skipn]. apply firstn_all2. lia. }
  destruct (Nat.eqb_spec (node_size (qhead q)) 0) as [E|E]; cbn [andb].
  - pose proof (qcontent_head_empty q H (size0_content _ E)) as Hq. rewrite Hq.
    destruct (Nat.ltb_spec 0 (length (qlazy q))) as [L|L].
    + exists (Z.of_nat (length (qlazy q))). rewrite take_all by lia. repeat split; auto; lia.
    + exists 0. rewrite Hb, size0_content by auto. repeat split; auto; try lia.
      intros Hx. destruct (qlazy q); simpl in L; try congruence; lia.
  - exists (Z.of_nat (length (ncontent (qhead q)))). rewrite Hb, qcontent_head by auto. repeat split; try lia.
    unfold take. rewrite Nat2Z.id, firstn_app_exact. reflexivity.
Qed.

Lemma q_putspace_spec : forall q want q1 space, qinv q -> q_putspace q want = Some (q1, space) ->
  qinv q1 /\ qabs q1 = mkA (qcontent q) 0 /\ qlazy q1 = [] /\
  space = (node_max (qtail q1) - ntl (qtail q1))%nat /\ (0 < space)%nat.
Proof.
  intros q want q1 space H E. unfold q_putspace in E.
  destruct (q_finalize_spec q H) as (qf & Ef & If & Cf & Lf). rewrite Ef in E.
  pose proof (nodes_split (qnodes qf) (nodes_inv_ne _ (proj1 If))) as Hs. 
  fold (qtail qf) in Hs. pose proof If as [Hn Hp]. rewrite Hs in Hn. apply nodes_inv_app in Hn. destruct Hn as [Hn1 Hn2].
  destruct (Nat.eqb_spec (ntl (qtail qf)) (node_max (qtail qf))) as [Em|Em].
  - inversion E; clear E; subst q1 space.
    set (s := Nat.max (qnsize qf) want) in *.
    assert (Ht : qtail (set_nodes qf (qnodes qf ++ [node_new s])) = node_new s).
    { unfold qtail, set_nodes. cbn [qnodes]. apply last_last. }
    rewrite !Ht, node_new_max. cbn [node_new ntl].
    unfold set_nodes, qabs, qcontent, qinv. cbn [qnodes qlazy qnsize]. rewrite Lf, app_nil_r, ncontents_app, Cf. cbn.
    rewrite app_nil_r. repeat split; auto; try lia.
    apply nodes_inv_app. split.
    + rewrite Hs. apply Forall_app; split; auto. constructor; auto.
      destruct Hn2. unfold nfull, ninv, node_max in *. lia.
    + split; [apply node_new_inv|]. cbn. rewrite repeat_length. lia.
  - inversion E; clear E; subst q1 space. repeat split; auto; try apply If.
    + unfold qabs, qcontent at 1. rewrite Lf, app_nil_r, Cf. reflexivity.
    + destruct Hn2 as [Hn2 _]. unfold ninv, node_max in *. lia.
Qed.

Lemma q_store_put_spec : forall q d, qinv q -> qlazy q = [] ->
  (length d <= node_max (qtail q) - ntl (qtail q))%nat ->
  qinv (q_put_inplace (q_store q d) (length d)) /\
  qabs (q_put_inplace (q_store q d) (length d)) = mkA (qcontent q ++ d) 0.
Proof.
  intros q d H Hl Hd. unfold q_put_inplace, q_store, qtail, set_nodes. cbn [qnodes qlazy qnsize qlazymod qauto].
  rewrite removelast_last, last_last. cbn [nbuf nhd ntl].
  pose proof (nodes_split (qnodes q) (nodes_inv_ne _ (proj1 H))) as Hs.
  unfold qtail in *. set (t := last (qnodes q) (node_new 0)) in *.
  destruct H as [Hn Hp]. rewrite Hs in Hn. apply nodes_inv_app in Hn. destruct Hn as [Hn1 [Hn2 Hn3]].
  unfold node_max, ninv in *.
  assert (Hb : length (blit (ntl t) d (nbuf t)) = length (nbuf t)) by (apply blit_length; lia).
  split.
  - split; auto. cbn [qnodes]. apply nodes_inv_app. split; auto. unfold tinv, ninv. cbn [nbuf nhd ntl]. rewrite Hb. lia.
  - unfold qabs, qcontent. cbn [qnodes qlazy]. rewrite Hl, !app_nil_r. f_equal.
    rewrite Hs at 2. rewrite !ncontents_app, <- app_assoc. f_equal. cbn. rewrite !app_nil_r.
    unfold ncontent. cbn [nbuf nhd ntl]. rewrite !range_as_prefix, blit_prefix by lia.
    rewrite skipn_app_le; auto. rewrite firstn_length_le'; lia.
Qed.

Lemma q_at_spec : forall q i, qinv q -> 0 <= i -> q_at q i = nth_error (qcontent q) (Z.to_nat i).
Proof.
  intros q i [Hi _] H. unfold q_at, qcontent. apply nodes_inv_Forall in Hi.
  revert i H. induction (qnodes q) as [|n l IH]; intros i H; cbn [at_nodes].
  - cbn. destruct (Z.ltb_spec i (Z.of_nat (length (qlazy q)))).
    + symmetry. apply nth_error_nth'. lia.
    + symmetry. apply nth_error_None. lia.
  - inversion Hi; subst. rewrite ncontents_cons, <- app_assoc.
    pose proof (ncontent_length n H2) as Hl.
    destruct (Z.ltb_spec i (Z.of_nat (node_size n))).
    + rewrite nth_error_app1 by lia. rewrite (nth_error_nth' _ 0) by lia. f_equal.
      unfold node_at, ncontent. unfold node_size in *. rewrite nth_firstn_lt, nth_skipn_add by lia. reflexivity.
    + rewrite nth_error_app2 by lia. rewrite IH by (auto; lia). f_equal. lia.
Qed.

(* ------------------------------------------------ comparison *)
Lemma w_getbyte_spec : forall w w' r, winv w -> w_getbyte w = (w', r) ->
  winv w' /\ r = hd_error (wcontent w) /\ wcontent w' = tl (wcontent w).
Proof.
  intros w w' r H E. unfold w_getbyte in E. destruct (w_transfer w 1 None) as [[w1 o] t] eqn:Et.
  destruct (w_transfer_spec _ _ _ _ _ _ H Z.le_0_1 Et) as (m & M1 & M2 & M3 & M4 & M5 & M6).
  rewrite M6 in * by auto. inversion E; subst. split; auto. rewrite M5.
  destruct (wcontent w); split; reflexivity.
Qed.

Lemma eq_loop_spec : forall f w1 w2, winv w1 -> winv w2 -> length (wcontent w1) = length (wcontent w2) ->
  (length (wcontent w1) < f)%nat ->
  exists e, eq_loop f w1 w2 = Some e /\ (e = true <-> wcontent w1 = wcontent w2).
Proof.
  induction f; intros w1 w2 I1 I2 Hl Hf; [lia|]. cbn [eq_loop].
  destruct (w_getbyte w1) as [a x] eqn:E1. destruct (w_getbyte w2) as [b y] eqn:E2.
  destruct (w_getbyte_spec _ _ _ I1 E1) as (A1 & A2 & A3).
  destruct (w_getbyte_spec _ _ _ I2 E2) as (B1 & B2 & B3).
  destruct (wcontent w1) as [|c1 r1] eqn:Ec1, (wcontent w2) as [|c2 r2] eqn:Ec2; simpl in Hl; try lia.
  - subst x. cbn. exists true. tauto.
  - subst x y. cbn [hd_error]. simpl in Hf, A3, B3.
    destruct (Z.eqb_spec c1 c2) as [->|N].
    + destruct (IHf a b A1 B1) as (e & Ee & He). { rewrite A3, B3. lia. } { rewrite A3. lia. }
      exists e. split; auto. rewrite He, A3, B3. split; intros; congruence.
    + exists false. split; auto. split; intros; congruence.
Qed.

Lemma q_eq_spec : forall a b, qinv a -> qinv b ->
  exists e, q_eq a b = Some e /\ (e = true <-> qcontent a = qcontent b).
Proof.
  intros a b Ha Hb. unfold q_eq. rewrite !q_size_spec by auto.
  destruct (Z.eqb_spec (Z.of_nat (length (qcontent a))) (Z.of_nat (length (qcontent b)))).
  - rewrite Nat2Z.id. rewrite <- (w_new_content a), <- (w_new_content b).
    apply eq_loop_spec; try apply w_new_inv; auto; rewrite !w_new_content; lia.
  - exists false. split; auto. split; [discriminate|]. intros E. rewrite E in n. lia.
Qed.

(* ------------------------------------------------ refinement *)
Lemma q_new_inv : forall ns, qinv (q_new ns) /\ qabs (q_new ns) = empty_aqueue.
Proof.
  intros. unfold q_new, setNodeSize_size. split; [|reflexivity].
  split; cbn [qnodes qnsize nodes_inv]; [split; [apply node_new_inv|cbn; rewrite repeat_length]|];
    destruct (Nat.eqb_spec ns 0); lia.
Qed.

Lemma q_step_spec : forall q op q' r, qinv q -> ok_qop op -> q_step q op = (q', r) ->
  qinv q' /\ spec_step (qabs q) op r (qabs q').
Proof.
  intros q op q' r H Hok E. destruct op; cbn [q_step ok_qop] in *.
  - destruct (q_put_spec q d H) as (q1 & E1 & I1 & A1). rewrite E1 in E. inversion E; subst. split; auto.
    cbn. auto.
  - destruct (q_putspace q want) as [[q1 sp]|] eqn:Ep.
    + destruct (q_putspace_spec _ _ _ _ H Ep) as (P1 & P2 & P3 & P4 & P5).
      inversion E; subst q' r; clear E.
      destruct (q_store_put_spec q1 (firstn sp d) P1 P3) as [S1 S2].
      { rewrite firstn_length. lia. }
      split; auto. cbn. exists (length (firstn sp d)). rewrite S2.
      assert (qcontent q1 = qcontent q) by (inversion P2; auto). rewrite H0.
      rewrite firstn_length. repeat split; auto; try lia.
      * intros. destruct d; [congruence|]. cbn [length]. lia.
      * f_equal. f_equal. destruct (Nat.le_ge_cases sp (length d)).
        { rewrite Nat.min_l by auto. reflexivity. }
        { rewrite Nat.min_r by auto. rewrite !firstn_all2; auto. }
    + exfalso. unfold q_putspace in Ep. destruct (q_finalize_spec q H) as (qf & Ef & _). rewrite Ef in Ep. discriminate.
  - unfold q_lazyput in E. destruct (q_finalize_spec q H) as (qf & Ef & If & Cf & Lf). rewrite Ef in E.
    inversion E; subst. split; [exact If|]. cbn. split; auto. unfold qabs, qcontent. cbn [qnodes qlazy].
    rewrite Cf. reflexivity.
  - unfold q_undo in E. cbn [spec_step qabs undoable content].
    destruct (Nat.ltb_spec (length (qlazy q)) n) as [L|L]; inversion E; subst; clear E; split; auto.
    + split; auto. unfold qabs, qcontent. cbn [qnodes qlazy]. rewrite app_length.
      rewrite firstn_app_ge by lia. rewrite firstn_length_le' by lia. f_equal. f_equal. f_equal. lia.
  - destruct (q_finalize_spec q H) as (qf & Ef & If & Cf & Lf). rewrite Ef in E. inversion E; subst. split; auto.
    cbn. split; auto. unfold qabs, qcontent at 1. rewrite Lf, Cf, app_nil_r. reflexivity.
  - destruct (q_getbyte q) as [q1 b] eqn:Eg. inversion E; subst.
    destruct (q_getbyte_spec _ _ _ H Eg) as (G1 & G2 & G3). split; auto. cbn. subst b. auto.
  - destruct (q_transfer q n) as [[q1 o] t] eqn:Et. inversion E; subst.
    destruct (q_transfer_spec _ _ _ _ _ H (proj1 Hok) Et) as (G1 & G2 & G3 & G4). split; auto. cbn.
    subst o t. auto.
  - destruct (q_transfer_nb q n k) as [[q1 o] t] eqn:Et. inversion E; subst.
    destruct (q_transfer_nb_spec _ _ _ _ _ _ H (proj1 Hok) Et) as (m & G0 & G1 & G2 & G3 & G4 & G5). split; auto.
    cbn. exists m. subst o t. auto.
  - inversion E; subst. destruct (q_unget_spec q d H) as [U1 U2]. split; auto. cbn. auto.
  - inversion E; subst. destruct (q_clear_spec q H). cbn. auto.
  - inversion E; subst. unfold q_init. 
    assert (H1 : qinv (mkQ (qnodes q) (qlazy q) (match nodeSize with Some n => n | None => 256%nat end) (qlazymod q) (qauto q))).
    { destruct H. split; auto. cbn [qnsize]. destruct nodeSize; lia. }
    destruct (q_clear_spec _ H1). cbn [spec_step]. auto.
  - inversion E; subst. split; auto. cbn. rewrite q_size_spec; auto.
  - inversion E; subst. split; auto. cbn. rewrite q_isempty_spec; auto.
  - inversion E; subst. split; auto. cbn. rewrite q_peekbyte_spec; auto.
  - inversion E; subst. split; auto. unfold q_peek. rewrite q_copyrange_spec; auto.
    2:{ unfold lword. lia. } rewrite drop_0. cbn. auto.
  - destruct (q_copyrange q position copyMax) as [o c] eqn:Eo. inversion E; subst. split; auto.
    rewrite q_copyrange_spec in Eo by tauto. inversion Eo; subst. cbn. auto.
  - inversion E; subst. split; auto. rewrite q_at_spec by (auto; apply Hok). cbn. auto.
  - inversion E; subst. split; auto. destruct (q_spy_spec _ H) as (n & N1 & N2 & N3). cbn.
    exists n. rewrite N1. auto.
Qed.

Lemma p_step_spec : forall s op s' r, qinv (fst s) -> qinv (snd s) -> ok_pop op -> p_step s op = (s', r) ->
  qinv (fst s') /\ qinv (snd s') /\ spec_pstep (qabs (fst s), qabs (snd s)) op r (qabs (fst s'), qabs (snd s')).
Proof.
  intros [a b] op s' r Ha Hb Hok E. cbn [fst snd] in *. destruct op; cbn [p_step ok_pop] in *.
  - destruct (q_step a op) as [a' r'] eqn:Eq. inversion E; subst.
    destruct (q_step_spec _ _ _ _ Ha Hok Eq). cbn [fst snd]. repeat split; auto; try apply Hb; try apply H.
    cbn. eauto.
  - destruct (q_step b op) as [b' r'] eqn:Eq. inversion E; subst.
    destruct (q_step_spec _ _ _ _ Hb Hok Eq). cbn [fst snd]. repeat split; auto; try apply Ha; try apply H.
    cbn. eauto.
  - unfold q_copyfrom in E.
    destruct (q_put_spec (mkQ (qnodes b) [] (qnsize b) (qlazymod a) (qauto b)) (qlazy b) Hb) as (q1 & E1 & I1 & A1).
    rewrite E1 in E. inversion E; subst. cbn [fst snd]. repeat split; auto; try apply Hb; try apply I1.
    unfold qcontent in A1. cbn [qnodes qlazy] in A1. rewrite app_nil_r in A1. rewrite A1. reflexivity.
  - inversion E; subst. cbn. auto.
  - destruct (q_eq_spec a b Ha Hb) as (e & Ee & He). rewrite Ee in E. inversion E; subst. cbn [fst snd].
    repeat split; auto; try apply Ha; try apply Hb. exists e. auto.
Qed.

Lemma p_run_spec : forall ops s, qinv (fst s) -> qinv (snd s) -> Forall ok_pop ops ->
  spec_run (qabs (fst s), qabs (snd s)) ops (p_run s ops).
Proof.
  induction ops; intros s Ha Hb Hok; cbn [p_run]. { constructor. }
  inversion Hok; subst. destruct (p_step s a) as [s' r] eqn:E.
  destruct (p_step_spec _ _ _ _ Ha Hb H1 E) as (A & B & C). econstructor; eauto.
Qed.

(* ------------------------------------------------ message queue *)
(** The lengths describe how the queue's bytes are cut into messages. *)
Definition mabs (m : mqueue) (a : amq) : Prop :=
  qinv (mq_q m) /\ qcontent (mq_q m) = concat (done a) ++ open a /\
  mq_lengths m = map (fun x => Z.of_nat (length x)) (done a) ++ [Z.of_nat (length (open a))].

Lemma add_back_app : forall x l y, add_back x (l ++ [y]) = l ++ [y + x].
Proof. induction l; intros; cbn [app add_back]; auto. rewrite IHl. destruct l; reflexivity. Qed.

Lemma mq_front : forall m a, mabs m a -> front (mq_lengths m) = Z.of_nat (length (amq_current a)).
Proof. intros m a (H1 & H2 & H3). rewrite H3. unfold amq_current. destruct (done a); reflexivity. Qed.

Lemma amq_content_cur : forall a, exists rest, concat (done a) ++ open a = amq_current a ++ rest /\
  (done a = [] -> rest = []) /\ (forall l, concat (done (amq_set a l)) ++ open (amq_set a l) = l ++ rest).
Proof.
  intros. unfold amq_current, amq_set. destruct (done a) as [|c r] eqn:E.
  - exists []. cbn. rewrite app_nil_r. repeat split; auto. intros. rewrite app_nil_r. auto.
  - exists (concat r ++ open a). cbn. rewrite <- app_assoc. repeat split; auto. discriminate.
    intros. cbn. rewrite app_assoc. reflexivity.
Qed.

Lemma copy_messages_spec : forall dn opn w c, winv w -> wcontent w = concat dn ++ opn ->
  copy_messages w (map (fun x => Z.of_nat (length x)) dn ++ [Z.of_nat (length opn)]) c
  = firstn (Z.to_nat c) dn.
Proof.
  induction dn as [|d dn IH]; intros opn w c Hw Hc.
  - cbn. rewrite firstn_nil. reflexivity.
  - cbn [map app copy_messages].
    destruct (map (fun x => Z.of_nat (length x)) dn ++ [Z.of_nat (length opn)]) eqn:El.
    { destruct dn; discriminate. }
    rewrite <- El. destruct (Z.ltb_spec 0 c) as [L|L].
    2:{ replace (Z.to_nat c) with 0%nat by lia. reflexivity. }
    destruct (w_transfer w (Z.of_nat (length d)) None) as [[w1 o] t] eqn:Et.
    destruct (w_transfer_spec _ _ _ _ _ _ Hw (Nat2Z.is_nonneg _) Et) as (m & M1 & M2 & M3 & M4 & M5 & M6).
    rewrite M6 in * by auto. rewrite Hc in *. cbn [concat] in *. rewrite <- app_assoc in *.
    unfold take in M2. unfold drop in M5. rewrite Nat2Z.id in *. rewrite firstn_app_exact in M2. rewrite skipn_app_exact in M5.
    rewrite (IH opn w1) by auto. replace (Z.to_nat c) with (S (Z.to_nat (c - 1))) by lia.
    subst o. reflexivity.
Qed.

Lemma take_prefix : forall n (a b : list Z), 0 <= n <= Z.of_nat (length a) -> take n (a ++ b) = take n a.
Proof. intros. rewrite take_app by lia. rewrite (take_neg (n - _)) by lia. apply app_nil_r. Qed.

Lemma take_min : forall n (a : list Z), 0 <= n -> take (Z.min (Z.of_nat (length a)) n) a = take n a.
Proof.
  intros. destruct (Z.le_ge_cases n (Z.of_nat (length a))).
  - rewrite Z.min_r by lia. reflexivity.
  - rewrite Z.min_l, !take_all by lia. reflexivity.
Qed.
Lemma drop_min : forall n (a : list Z), 0 <= n -> drop (Z.min (Z.of_nat (length a)) n) a = drop n a.
Proof.
  intros. destruct (Z.le_ge_cases n (Z.of_nat (length a))).
  - rewrite Z.min_r by lia. reflexivity.
  - rewrite Z.min_l, !drop_all by lia. reflexivity.
Qed.

Lemma m_step_spec : forall m a op m' r, mabs m a -> ok_mop op -> m_step m op = (m', r) ->
  exists a', mabs m' a' /\ spec_mstep a op r a'.
Proof.
  intros m a op m' r H Hok E. pose proof H as (Hq & Hc & Hl). pose proof (mq_front m a H) as Hfr.
  destruct (amq_content_cur a) as (rest & R1 & R2 & R3).
  destruct op; cbn [m_step ok_mop spec_mstep] in *.
  - unfold mq_put in E. destruct (q_put_spec (mq_q m) d Hq) as (q1 & E1 & I1 & A1). rewrite E1 in E.
    assert (Hc1 : qcontent q1 = qcontent (mq_q m) ++ d) by (inversion A1; auto).
    inversion E; subst. eexists. split; [|split; reflexivity].
    destruct messageEnd; (split; [exact I1|]); cbn [mq_q mq_lengths done open]; rewrite Hc1, Hc, Hl.
    + rewrite concat_app. cbn. rewrite !app_nil_r, <- app_assoc. split; auto.
      rewrite map_app, add_back_app. cbn. rewrite app_length, Nat2Z.inj_add. reflexivity.
    + rewrite <- app_assoc. split; auto. rewrite add_back_app, app_length, Nat2Z.inj_add. reflexivity.
  - inversion E; subst. exists a. split; auto.
  - inversion E; subst. eexists. split; [|split; reflexivity].
    destruct (q_step_spec (mq_q m) (QInit ns) (q_init ns (mq_q m)) RUnit Hq) as [I1 A1]; auto.
    cbn in A1. destruct A1 as [_ A1].
    split; [exact I1|].  cbn [mq_init mq_q mq_lengths done open]. split; auto.
  - unfold mq_transfer in E. unfold mq_maxretrievable in E. rewrite Hfr in E.
    set (cur := amq_current a) in *. set (t := Z.min (Z.of_nat (length cur)) n) in *.
    destruct (q_transfer (mq_q m) t) as [[q1 o] tb] eqn:Et.
    assert (Ht : 0 <= t <= Z.of_nat (length cur)) by (unfold lword in Hok; lia).
    destruct (q_transfer_spec _ _ _ _ _ Hq (proj1 Ht) Et) as (T1 & T2 & T3 & T4).
    rewrite Hc, R1, take_prefix in T2 by auto.
    assert (Hto : take t cur = take n cur) by (apply take_min; apply Hok).
    assert (Hdr : drop t cur = drop n cur) by (apply drop_min; apply Hok).
    inversion E; subst m' r; clear E.
    exists (amq_set a (drop n cur)). split.
    + split; [exact T1|]. split.
      * cbn [mq_q]. rewrite R3. assert (qcontent q1 = drop t (qcontent (mq_q m))) as -> by (inversion T4; auto).
        rewrite Hc, R1, drop_app by lia. rewrite (drop_neg (t - _)) by lia. rewrite Hdr. reflexivity.
      * cbn [mq_lengths]. rewrite Hl. subst cur. unfold amq_set, amq_current in *.
        assert (Hln : forall c, 0 <= t <= Z.of_nat (length c) -> Z.of_nat (length c) - Z.of_nat (length (take t c)) = Z.of_nat (length (drop t c))).
        { intros. rewrite take_length, drop_length by lia. lia. }
        destruct (done a); cbn [map app done open tl]; rewrite <- Hdr, T3, T2, Hln; auto.
    + rewrite T3, T2, Hto. auto.
  - unfold mq_next, mq_nmessages, mq_anyretrievable in E. rewrite Hfr in E.
    rewrite Hl, app_length, map_length in E. cbn [length] in E. unfold amq_current in E.
    destruct (done a) as [|c dn] eqn:Ed.
    + cbn in E. inversion E; subst. exists a. auto.
    + destruct c as [|x c].
      * cbn [length] in E. replace (0 <? Z.of_nat (S (length dn) + 1) - 1) with true in E
          by (symmetry; apply Z.ltb_lt; lia). cbn in E. inversion E; subst. exists (mkAM dn (open a)). split; auto.
        split; [exact Hq|]. cbn [mq_q mq_lengths done open]. rewrite Hc. split; reflexivity.
      * replace (0 <? Z.of_nat (length (x :: c))) with true in E by (symmetry; apply Z.ltb_lt; cbn [length]; lia).
        rewrite andb_false_r in E. inversion E; subst. exists a. auto.
  - inversion E; subst. exists a. split; auto. unfold mq_maxretrievable. rewrite Hfr. auto.
  - inversion E; subst. exists a. split; auto. unfold mq_totalbytes. rewrite q_size_spec, Hc by auto. auto.
  - inversion E; subst. exists a. split; auto. unfold mq_nmessages. rewrite Hl, app_length, map_length.
    cbn [length]. split; auto. f_equal. lia.
  - destruct (mq_copyrange m position copyMax) as [o c] eqn:Eo. inversion E; subst. exists a. split; auto.
    unfold mq_copyrange, mq_copyrange2, mq_maxretrievable in Eo. rewrite Hfr in Eo.
    destruct Hok as (K1 & K2 & K3). set (cur := amq_current a) in *.
    rewrite lmod_small in Eo by auto. unfold lword in *.
    destruct (Z.leb_spec (Z.of_nat (length cur)) position) as [G|L].
    + inversion Eo; subst. rewrite drop_all by lia. unfold take. rewrite firstn_nil.
      rewrite Z.sub_diag. auto.
    + rewrite q_copyrange2_spec in Eo by (auto; lia).
      set (e := Z.min (Z.of_nat (length cur)) (position + copyMax)) in *.
      rewrite (lmod_small (e - position)) in Eo by (unfold lword; lia).
      rewrite Hc, R1, drop_app, (drop_neg (_ - _)) in Eo by lia.
      rewrite take_prefix in Eo by (rewrite drop_length by lia; lia).
      assert (Ht : take (e - position) (drop position cur) = take copyMax (drop position cur)).
      { rewrite <- (take_min copyMax (drop position cur)) by lia. f_equal. rewrite drop_length by lia. lia. }
      rewrite Ht in Eo. rewrite lmod_sub in Eo.
      rewrite (lmod_small (Z.of_nat (length _))) in Eo.
      2:{ unfold lword. rewrite take_length by lia. lia. }
      inversion Eo. auto.
  - inversion E; subst. exists a. split; auto. unfold mq_copymessages. rewrite Hl.
    rewrite copy_messages_spec; auto. apply w_new_inv; auto.
  - inversion E; subst. exists a. split; auto. unfold mq_spy, mq_maxretrievable. rewrite Hfr.
    destruct (q_spy_spec _ Hq) as (n & N1 & N2 & N3). rewrite N1, Hc, R1 in *.
    set (cur := amq_current a) in *.
    exists (Z.min (Z.of_nat (length cur)) n).
    assert (firstn (Z.to_nat (Z.of_nat (length cur))) (take n (cur ++ rest)) = take (Z.min (Z.of_nat (length cur)) n) cur) as ->.
    { rewrite take_min by auto. unfold take. rewrite firstn_firstn, Nat2Z.id.
      destruct (Nat.le_ge_cases (length cur) (Z.to_nat n)).
      - rewrite Nat.min_l, firstn_app_exact, firstn_all2 by auto. reflexivity.
      - rewrite Nat.min_r, firstn_app_le by auto. reflexivity. }
    repeat split; auto; try lia. intros Hne.
    assert (0 < n). { apply N3. destruct cur; [congruence|discriminate]. }
    destruct cur; [congruence|]. cbn [length]. lia.
  - inversion E; subst. exists a. auto.
  - inversion E; subst. exists a. auto.
Qed.

Lemma m_run_spec : forall ops m a, mabs m a -> Forall ok_mop ops -> spec_mrun a ops (m_run m ops).
Proof.
  induction ops; intros m b H Hok; cbn [m_run]. { constructor. }
  inversion Hok; subst. destruct (m_step m a) as [m' r] eqn:E.
  destruct (m_step_spec _ _ _ _ _ H H2 E) as (a' & A & B). econstructor; eauto.
Qed.

Lemma mq_new_abs : forall ns, mabs (mq_new ns) (mkAM [] []).
Proof. intros. destruct (q_new_inv ns) as [H1 H2]. split; auto. Qed.

(* ------------------------------------------------ determinism *)
(** Operations whose answer is fixed by the content alone. *)
Definition det_qop (op : qop) : Prop :=
  match op with QPutSpace _ _ _ | QSpy => False | QGetNB _ (Some _) => False | _ => True end.
Definition det_pop (op : pop) : Prop := match op with P1 o | P2 o => det_qop o | _ => True end.

Lemma spec_step_det : forall a op r a' r2 a2, det_qop op -> spec_step a op r a' -> spec_step a op r2 a2 -> r = r2 /\ a' = a2.
Proof.
  intros a op r a' r2 a2 Hd H1 H2. destruct op; cbn [spec_step det_qop] in *; try tauto;
    try (destruct H1, H2; subst; auto; fail).
  - destruct (Nat.ltb (undoable a) n); destruct H1, H2; subst; auto.
  - destruct k; [tauto|]. destruct H1 as (m & ? & Hm & ? & ?), H2 as (m' & ? & Hm' & ? & ?).
    rewrite Hm, Hm' in * by auto. subst. auto.
Qed.

Lemma spec_pstep_det : forall s op r s' r2 s2, det_pop op -> spec_pstep s op r s' -> spec_pstep s op r2 s2 -> r = r2 /\ s' = s2.
Proof.
  intros [a b] op r s' r2 s2 Hd H1 H2. destruct op; cbn [spec_pstep det_pop] in *.
  - destruct H1 as (x & X1 & X2), H2 as (y & Y1 & Y2). destruct (spec_step_det _ _ _ _ _ _ Hd X1 Y1). subst. auto.
  - destruct H1 as (x & X1 & X2), H2 as (y & Y1 & Y2). destruct (spec_step_det _ _ _ _ _ _ Hd X1 Y1). subst. auto.
  - destruct H1, H2; subst; auto.
  - destruct H1, H2; subst; auto.
  - destruct H1 as (x & X1 & X2 & X3), H2 as (y & Y1 & Y2 & Y3). subst. split; auto. f_equal.
    destruct x, y; auto; intuition congruence.
Qed.

Lemma spec_run_det : forall ops s r1 r2, Forall det_pop ops -> spec_run s ops r1 -> spec_run s ops r2 -> r1 = r2.
Proof.
  induction ops; intros s r1 r2 Hd H1 H2;
  inversion H1 as [|? ? ra sa ? ? Xa Ya]; inversion H2 as [|? ? rb sb ? ? Xb Yb]; subst; auto.
  inversion Hd as [|? ? Hda Hdb]; subst. destruct (spec_pstep_det _ _ _ _ _ _ Hda Xa Xb). subst. f_equal. eauto.
Qed.

(* ------------------------------------------------ reachable queues *)
Fixpoint q_exec (q : queue) (ops : list qop) : queue :=
  match ops with [] => q | op :: rest => q_exec (fst (q_step q op)) rest end.

Lemma q_exec_inv : forall ops q, qinv q -> Forall ok_qop ops -> qinv (q_exec q ops).
Proof.
  induction ops; intros q H Hok; cbn; auto. inversion Hok; subst. apply IHops; auto.
  destruct (q_step q a) as [q' r] eqn:E. apply (q_step_spec _ _ _ _ H H2 E).
Qed.

Definition drained (q : queue) : list Z := snd (fst (q_transfer q (q_size q))).
Lemma drained_content : forall q, qinv q -> drained q = qcontent q.
Proof.
  intros q H. unfold drained. destruct (q_transfer q (q_size q)) as [[q' o] t] eqn:E. cbn.
  assert (0 <= q_size q) by (rewrite q_size_spec by auto; lia).
  destruct (q_transfer_spec _ _ _ _ _ H H0 E) as (A & B & _). rewrite B. apply take_all.
  rewrite q_size_spec; auto. lia.
Qed.

(* ------------------------------------------------ series counts as they are *)
(** Number of series ends, and messages completed before the first series end. *)
Fixpoint series_ends (ops : list mop) : Z :=
  match ops with [] => 0 | MSeriesEnd :: r => 1 + series_ends r | _ :: r => series_ends r end.
Fixpoint first_series (ops : list mop) : Z :=
  match ops with
  | [] => 0
  | MSeriesEnd :: _ => 0
  | MPut _ true :: r => 1 + first_series r
  | _ :: r => first_series r
  end.
(** No re-initialisation, and no series without a message. *)
Fixpoint nonempty_series (seen : bool) (ops : list mop) : Prop :=
  match ops with
  | [] => True
  | MSeriesEnd :: r => seen = true /\ nonempty_series false r
  | MPut _ true :: r => nonempty_series true r
  | MInit _ :: _ => False
  | _ :: r => nonempty_series seen r
  end.
Fixpoint m_exec (m : mqueue) (ops : list mop) : mqueue :=
  match ops with [] => m | op :: rest => m_exec (fst (m_step m op)) rest end.

Lemma m_step_mabs : forall m a op, mabs m a -> ok_mop op -> exists a', mabs (fst (m_step m op)) a'.
Proof.
  intros m a op H Ho. destruct (m_step m op) as [m' r] eqn:E.
  destruct (m_step_spec _ _ _ _ _ H Ho E) as (a' & A & _). eauto.
Qed.

Lemma add_back_cons : forall x a b l, add_back x (a :: b :: l) = a :: add_back x (b :: l).
Proof. reflexivity. Qed.
Lemma add_back_length : forall x l, length (add_back x l) = length l.
Proof. induction l; auto. destruct l; auto. rewrite add_back_cons. cbn [length] in *. congruence. Qed.
Lemma add_back_last : forall x l, l <> [] -> last (add_back x l) 0 = last l 0 + x.
Proof.
  induction l; intros; [congruence|]. destruct l; auto. rewrite add_back_cons.
  assert (add_back x (z :: l) <> []) by (intros E; apply (f_equal (@length Z)) in E; rewrite add_back_length in E; discriminate).
  change (last (a :: z :: l) 0) with (last (z :: l) 0). rewrite <- IHl by discriminate.
  destruct (add_back x (z :: l)); [congruence|]. reflexivity.
Qed.
Lemma add_back_nonneg : forall x l, 0 <= x -> Forall (fun y => 0 <= y) l -> Forall (fun y => 0 <= y) (add_back x l).
Proof.
  induction l; intros Hx H; auto. inversion H; subst. destruct l. { constructor; auto. lia. }
  rewrite add_back_cons. constructor; auto.
Qed.
Lemma last_nonneg : forall l, Forall (fun y => 0 <= y) l -> 0 <= last l 0.
Proof.
  induction l; intros H; [cbn; lia|]. inversion H; subst. destruct l; auto.
Qed.

(** Counts are non-negative; only the last can be 0, and is not when a message has been completed
    in the current series. *)
Definition counts_ok (seen : bool) (l : list Z) : Prop :=
  l <> [] /\ Forall (fun y => 0 <= y) l /\ (length l <> 1%nat -> 0 < hd 0 l) /\
  (seen = true -> 0 < last l 0).

Lemma counts_run : forall ops m a seen, mabs m a -> counts_ok seen (mq_counts m) ->
  Forall ok_mop ops -> nonempty_series seen ops ->
  mq_nseries (m_exec m ops) = mq_nseries m + series_ends ops /\
  mq_nmessages_series (m_exec m ops) =
    mq_nmessages_series m + (if mq_nseries m =? 0 then first_series ops else 0).
Proof.
  induction ops as [|op ops IH]; intros m a seen Hm Hc Hok Hne.
  - cbn. destruct (mq_nseries m =? 0); lia.
  - inversion Hok as [|? ? Ho Hok']; subst. cbn [m_exec].
    destruct (m_step_mabs m a op Hm Ho) as [a' Hm'].
    pose proof Hc as (C1 & C2 & C3 & C4).
    assert (Hskip : mq_counts (fst (m_step m op)) = mq_counts m -> nonempty_series seen ops ->
      series_ends (op :: ops) = series_ends ops -> first_series (op :: ops) = first_series ops ->
      mq_nseries (m_exec (fst (m_step m op)) ops) = mq_nseries m + series_ends (op :: ops) /\
      mq_nmessages_series (m_exec (fst (m_step m op)) ops) =
       mq_nmessages_series m + (if mq_nseries m =? 0 then first_series (op :: ops) else 0)).
    { intros E1 E2 E3 E4. destruct (IH _ _ seen Hm') as [A B]; auto. { rewrite E1; auto. }
      rewrite A, B, E3, E4. unfold mq_nseries, mq_nmessages_series. rewrite E1. auto. }
    destruct op; try (apply Hskip; auto; fail).
    + destruct messageEnd.
      * cbn [m_step] in *. unfold mq_put in *. destruct (q_put_spec (mq_q m) d (proj1 Hm)) as (q1 & E1 & _).
        rewrite E1 in *. cbn [fst] in *.
        destruct (IH _ _ true Hm') as [A B]; auto.
        { cbn [mq_counts]. split; [|split; [|split]].
          - intros E. apply (f_equal (@length Z)) in E. rewrite add_back_length in E. destruct (mq_counts m); [auto|discriminate].
          - apply add_back_nonneg; auto; lia.
          - rewrite add_back_length. intros H. specialize (C3 H). destruct (mq_counts m) as [|x [|y l]]; cbn in *; auto; lia.
          - intros _. rewrite add_back_last by auto. pose proof (last_nonneg _ C2). lia. }
        rewrite A, B. unfold mq_nseries, mq_nmessages_series. cbn [mq_counts]. rewrite add_back_length.
        cbn [series_ends first_series]. split; auto.
        destruct (mq_counts m) as [|x [|y l]]; [congruence| |].
        { cbn [add_back front hd length]. change (Z.of_nat 1 - 1 =? 0) with true. cbv iota. lia. }
        { rewrite add_back_cons. cbn [front hd length].
          destruct (Z.eqb_spec (Z.of_nat (S (S (length l))) - 1) 0); lia. }
      * apply Hskip; auto. cbn [m_step]. unfold mq_put.
        destruct (q_put_spec (mq_q m) d (proj1 Hm)) as (q1 & E1 & _). rewrite E1. reflexivity.
    + destruct Hne as [Hs Hne]. specialize (C4 Hs). cbn [m_step fst] in *.
      destruct (IH _ _ false Hm') as [A B]; auto.
      { cbn [mq_seriesend mq_counts]. split; [|split; [|split]].
        - destruct (mq_counts m); discriminate.
        - apply Forall_app; split; auto. constructor; auto; lia.
        - intros _. destruct (mq_counts m) as [|x [|y l]]; [congruence| |]; cbn in *; auto.
        - discriminate. }
      rewrite A, B. unfold mq_nseries, mq_nmessages_series. cbn [mq_seriesend mq_counts]. rewrite app_length.
      cbn [length series_ends first_series].
      destruct (mq_counts m) as [|x l]; [congruence|]. cbn [app front hd length].
      destruct (Z.eqb_spec (Z.of_nat (S (length l) + 1) - 1) 0); [lia|].
      destruct (Z.eqb_spec (Z.of_nat (S (length l)) - 1) 0); split; lia.
    + cbn [nonempty_series] in Hne. tauto.
    + apply Hskip; auto. cbn [m_step]. unfold mq_transfer.
      destruct (q_transfer (mq_q m) (Z.min (mq_maxretrievable m) n)) as [[q1 o] tb]. reflexivity.
    + apply Hskip; auto. cbn [m_step]. unfold mq_next.
      destruct ((0 <? mq_nmessages m) && negb (mq_anyretrievable m)); auto. cbn [fst mq_counts].
      destruct (Z.eqb_spec (front (mq_counts m)) 0); auto. unfold front in *.
      destruct (Nat.ltb_spec 1 (length (mq_counts m))); auto. assert (0 < hd 0 (mq_counts m)) by (apply C3; lia). lia.
    + apply Hskip; auto. cbn [m_step]. destruct (mq_copyrange m position copyMax). reflexivity.
Qed.
