(** Proofs about EqualityComparisonFilter. *)
From Coq Require Import ZArith List Lia Bool Arith.
From Verif Require Import Base QueueModel QueueSpec QueueProofs EqFilterModel EqFilterSpec.
Import ListNotations.
Local Open Scope Z_scope.

Definition atoks (a : amq) : list token := flat_map message_tokens (done a) ++ map Byte (open a).
Definition se (e : bool) : list token := if e then [SeriesEnd] else [].
Definition cinv (q : mqueue) (a : amq) (e : bool) : Prop :=
  exists c, mq_counts q = c :: (if e then [0] else []) /\ Z.of_nat (length (done a)) <= c.

Lemma cinv_nseries : forall q a e, cinv q a e -> (0 <? mq_nseries q) = e.
Proof. intros q a e (c & H & _). unfold mq_nseries. rewrite H. destruct e; reflexivity. Qed.

Lemma byte_map_inj : forall a b, map Byte a = map Byte b -> a = b.
Proof. induction a; destruct b; cbn; intros H; inversion H; subst; auto. f_equal; auto. Qed.

Lemma any_msgs : forall q a, mabs q a -> mq_anymessages q = negb (Nat.eqb (length (done a)) 0).
Proof.
  intros q a (_ & _ & H). unfold mq_anymessages, mq_nmessages. rewrite H, app_length, map_length. cbn [length].
  f_equal. destruct (Nat.eqb_spec (length (done a)) 0); [apply Z.eqb_eq|apply Z.eqb_neq]; lia.
Qed.
Lemma any_retr : forall q a, mabs q a -> mq_anyretrievable q = negb (Nat.eqb (length (amq_current a)) 0).
Proof.
  intros q a H. unfold mq_anyretrievable. rewrite (mq_front q a H).
  destruct (Nat.eqb_spec (length (amq_current a)) 0); cbn; [apply Z.ltb_ge|apply Z.ltb_lt]; lia.
Qed.

Lemma amq_set_twice : forall a x y, amq_set (amq_set a x) y = amq_set a y.
Proof. intros. unfold amq_set. destruct (done a); reflexivity. Qed.
Lemma amq_set_cur : forall a x, amq_current (amq_set a x) = x.
Proof. intros. unfold amq_set, amq_current. destruct (done a); reflexivity. Qed.
Lemma amq_set_same : forall a, amq_set a (amq_current a) = a.
Proof. intros. unfold amq_set, amq_current. destruct a as [[|m r] o]; reflexivity. Qed.
Lemma amq_set_done : forall a x, length (done (amq_set a x)) = length (done a).
Proof. intros. unfold amq_set. destruct (done a); reflexivity. Qed.

(** The tokens of a queue start with the bytes of its current message. *)
Lemma atoks_cur : forall a, exists r, atoks a = map Byte (amq_current a) ++ r /\
  (done a <> [] -> exists r', r = MsgEnd :: r') /\ (done a = [] -> r = []) /\
  (forall x, atoks (amq_set a x) = map Byte x ++ r).
Proof.
  intros a. unfold atoks, amq_current, amq_set. destruct (done a) as [|m r].
  - exists []. cbn. rewrite app_nil_r. repeat split; auto; try congruence. intros. rewrite app_nil_r. auto.
  - exists (MsgEnd :: flat_map message_tokens r ++ map Byte (open a)).
    cbn [flat_map]. unfold message_tokens at 1. rewrite <- !app_assoc. cbn [app].
    repeat split; eauto; try discriminate. intros. cbn [done open flat_map]. unfold message_tokens at 1.
    rewrite <- !app_assoc. reflexivity.
Qed.

Lemma beqlist_spec : forall a b, if beqlist a b then a = b else a <> b.
Proof. intros. unfold beqlist. destruct (list_eq_dec Z.eq_dec a b); auto. Qed.

Lemma ecf_compare_spec : forall f d q2 a2, mabs q2 a2 -> Z.of_nat (length (amq_current a2)) < 2 ^ 64 -> (length d < f)%nat ->
  let cur := amq_current a2 in let n := Nat.min (length d) (length cur) in
  (firstn n d = firstn n cur /\ exists q2', ecf_compare f d q2 = Some (Some (skipn n d, q2')) /\
     mabs q2' (amq_set a2 (skipn n cur)) /\ mq_counts q2' = mq_counts q2) \/
  (firstn n d <> firstn n cur /\ ecf_compare f d q2 = Some None).
Proof.
  induction f; intros d q2 a2 H Hlw Hf cur n; [lia|]. cbn [ecf_compare].
  rewrite (any_retr q2 a2 H). fold cur.
  destruct (Nat.ltb_spec 0 (length d)) as [Ld|Ld].
  2:{ cbn [andb]. left. replace n with 0%nat by lia. split; auto. exists q2. cbn [skipn]. subst cur.
      rewrite amq_set_same. auto. }
  destruct (Nat.eqb_spec (length cur) 0) as [Lc|Lc].
  { cbn [andb negb]. left. replace n with 0%nat by lia. split; auto. exists q2. cbn [skipn]. subst cur.
    rewrite amq_set_same. auto. }
  cbn [andb negb].
  destruct (m_step_spec q2 a2 MSpy q2 (MBytes (mq_spy q2) (Z.of_nat (length (mq_spy q2)))) H I eq_refl)
    as (a' & _ & (k & K1 & K2 & K3 & _)).
  fold cur in K1, K3.
  assert (Hk : 0 < k) by (apply K3; destruct cur; [cbn in Lc; lia|discriminate]).
  injection K1 as K1 _. rewrite K1. set (data := take k cur) in *.
  set (len := Nat.min (length data) (length d)).
  assert (Hdl : Z.of_nat (length data) = Z.min k (Z.of_nat (length cur))) by (apply take_length; lia).
  assert (Hlen : (0 < len <= n)%nat) by lia.
  assert (Hdata : firstn len data = firstn len cur).
  { unfold data, take. rewrite firstn_firstn. f_equal. lia. }
  rewrite Hdata.
  assert (Hn : n = (len + (n - len))%nat) by lia.
  pose proof (beqlist_spec (firstn len d) (firstn len cur)) as Hb.
  destruct (beqlist (firstn len d) (firstn len cur)).
  - destruct (mq_transfer q2 (Z.of_nat len)) as [[q3 o] tb] eqn:Et. cbn [fst].
    assert (Hst : m_step q2 (MGet (Z.of_nat len)) = (q3, MBytes o tb)) by (cbn [m_step]; rewrite Et; reflexivity).
    assert (Hok : ok_mop (MGet (Z.of_nat len))) by (cbn; unfold lword; fold cur in Hlw; lia).
    destruct (m_step_spec _ _ _ _ _ H Hok Hst) as (a3 & A1 & A2 & A3).
    fold cur in A2, A3. unfold drop in A3. rewrite Nat2Z.id in A3.
    assert (Hcnt : mq_counts q3 = mq_counts q2).
    { unfold mq_transfer in Et. destruct (q_transfer (mq_q q2) (Z.min (mq_maxretrievable q2) (Z.of_nat len))) as [[x y] z].
      inversion Et. reflexivity. }
    assert (Hc3 : amq_current a3 = skipn len cur) by (rewrite A3; apply amq_set_cur).
    destruct (IHf (skipn len d) q3 a3 A1) as [(B1 & q4 & B2 & B3 & B4)|(B1 & B2)].
    { rewrite Hc3, skipn_length. fold cur in Hlw. lia. }
    { rewrite skipn_length. lia. }
    + left. rewrite Hc3, !skipn_length in *.
      replace (Nat.min (length d - len) (length cur - len)) with (n - len)%nat in * by lia.
      split. { rewrite Hn, !firstn_add, Hb, B1. reflexivity. }
      exists q4. rewrite B2. rewrite !skipn_skipn_add in *. replace (n - len + len)%nat with n in * by lia.
      split; auto. split; [|congruence]. rewrite A3, amq_set_twice in B3. exact B3.
    + right. split; auto. intros E. apply B1. rewrite Hc3, !skipn_length in *.
      replace (Nat.min (length d - len) (length cur - len)) with (n - len)%nat in * by lia.
      rewrite Hn, !firstn_add, Hb in E. apply app_inv_head in E. auto.
  - right. split; auto. intros E. apply Hb. 
    apply (f_equal (firstn len)) in E. rewrite !firstn_firstn, Nat.min_l in E by lia. auto.
Qed.

Lemma mput_spec : forall q a d e, mabs q a -> exists q', mq_put q d e = Some q' /\
  mabs q' (if e then mkAM (done a ++ [open a ++ d]) [] else mkAM (done a) (open a ++ d)) /\
  mq_counts q' = (if e then add_back 1 (mq_counts q) else mq_counts q).
Proof.
  intros q a d e H. destruct (q_put_spec (mq_q q) d (proj1 H)) as (q1 & E1 & _).
  destruct (m_step q (MPut d e)) as [m' r] eqn:E.
  destruct (m_step_spec q a (MPut d e) m' r H I E) as (a' & A1 & A2 & A3). subst a'.
  cbn [m_step] in E. unfold mq_put in *. rewrite E1 in *. inversion E; subst. eexists. split; [reflexivity|].
  split; auto. destruct e; reflexivity.
Qed.

Definition tk (d : list Z) (me : bool) : list token := map Byte d ++ (if me then [MsgEnd] else []).

Definition small (a : amq) : Prop := Z.of_nat (length (amq_current a)) < 2 ^ 64.

Lemma put_core : forall q1 q2 a1 a2 e1 e2 d me, mabs q1 a1 -> mabs q2 a2 -> cinv q1 a1 e1 -> cinv q2 a2 e2 ->
  small a2 -> (atoks a1 = [] \/ atoks a2 = []) -> (e2 = true -> done a1 = []) -> (e1 = true -> done a2 = []) ->
  (e1 = true -> d = [] /\ me = false) ->
  exists q1' q2' mis, ecf_put_q q1 q2 d me = Some (q1', q2', mis) /\
  if mis then forall X Y, atoks a1 ++ tk d me ++ X <> atoks a2 ++ se e2 ++ Y
  else exists a1' a2' p, mabs q1' a1' /\ mabs q2' a2' /\ cinv q1' a1' e1 /\ cinv q2' a2' e2 /\
    atoks a1 ++ tk d me = p ++ atoks a1' /\ atoks a2 = p ++ atoks a2' /\
    (atoks a1' = [] \/ atoks a2' = []) /\ (e2 = true -> done a1' = []) /\ (e1 = true -> done a2' = []).
Proof.
  intros q1 q2 a1 a2 e1 e2 d me H1 H2 C1 C2 Hsm Hor D1 D2 He1. unfold ecf_put_q.
  rewrite (any_msgs q2 a2 H2). unfold mq_maxretrievable. rewrite (mq_front q2 a2 H2).
  destruct (atoks_cur a2) as (r & R1 & R2 & R3 & R4).
  set (cur := amq_current a2) in *.
  assert (Hdn : length (done a2) = 0%nat <-> done a2 = []).
  { destruct (done a2); cbn; split; intros; auto; congruence || lia. }
  (* if the other queue is not empty, ours is *)
  assert (Ha1 : cur <> [] \/ done a2 <> [] -> atoks a1 = []).
  { intros [Hx|Hx]; destruct Hor as [Ho|Ho]; auto; exfalso; rewrite R1 in Ho; apply app_eq_nil in Ho; destruct Ho as [Ho1 Ho2].
    - apply Hx. destruct cur; auto. discriminate.
    - destruct (R2 Hx). congruence. }
  destruct (negb (Nat.eqb (length (done a2)) 0) && (Z.of_nat (length cur) <? Z.of_nat (length d))) eqn:Ec.
  { apply andb_true_iff in Ec. destruct Ec as [E1 E2]. apply negb_true_iff in E1. apply Nat.eqb_neq in E1. apply Z.ltb_lt in E2.
    assert (Hne : done a2 <> []) by tauto. destruct (R2 Hne) as [r' ->].
    exists q1, q2, true. split; auto. intros X Y E. rewrite (Ha1 (or_intror Hne)), R1 in E. cbn [app] in E.
    unfold tk in E. rewrite <- (firstn_skipn (length cur) d), map_app, <- !app_assoc in E.
    apply app_inj_length in E. 2:{ rewrite !map_length, firstn_length. lia. }
    destruct E as [_ E]. destruct (skipn (length cur) d) eqn:Es; [|discriminate].
    apply (f_equal (@length Z)) in Es. rewrite skipn_length in Es. cbn in Es. lia. }
  destruct (ecf_compare_spec (S (length d)) d q2 a2 H2 Hsm ltac:(lia)) as [(B1 & q2' & B2 & B3 & B4)|(B1 & B2)]; fold cur in B1, B2.
  2:{ rewrite B2. exists q1, q2, true. split; auto. intros X Y E.
      set (n := Nat.min (length d) (length cur)) in *. apply B1.
      assert (Hnz : cur <> []). { intros Hz. apply B1. subst n. rewrite Hz, Nat.min_0_r. reflexivity. }
      rewrite (Ha1 (or_introl Hnz)), R1 in E. cbn [app] in E. unfold tk in E.
      rewrite <- (firstn_skipn n d), <- (firstn_skipn n cur), !map_app, <- !app_assoc in E.
      apply app_inj_length in E. 2:{ rewrite !map_length, !firstn_length. lia. }
      apply byte_map_inj. apply E. }
  rewrite B2. fold cur in B3. set (n := Nat.min (length d) (length cur)) in *.
  set (a2' := amq_set a2 (skipn n cur)) in *.
  destruct (mput_spec q1 a1 (skipn n d) false H1) as (q1' & P1 & P2 & P3). rewrite P1.
  set (a1' := mkAM (done a1) (open a1 ++ skipn n d)) in *. cbv iota in P2.
  assert (C1' : cinv q1' a1' e1).
  { destruct C1 as (c & X1 & X2). exists c. rewrite P3. auto. }
  assert (C2' : cinv q2' a2' e2).
  { destruct C2 as (c & X1 & X2). exists c. rewrite B4. split; auto. unfold a2'. rewrite amq_set_done. auto. }
  assert (Ta1 : atoks a1' = atoks a1 ++ map Byte (skipn n d)).
  { unfold atoks, a1'. cbn [done open]. rewrite map_app, app_assoc. reflexivity. }
  assert (Ta2 : atoks a2' = map Byte (skipn n cur) ++ r) by apply R4.
  assert (Tp1 : map Byte (firstn n d) ++ map Byte (skipn n d) = map Byte d) by (rewrite <- map_app, firstn_skipn; auto).
  assert (Tp2 : atoks a2 = map Byte (firstn n d) ++ atoks a2').
  { rewrite Ta2, R1, B1, app_assoc, <- map_app, firstn_skipn. reflexivity. }
  assert (Hpre : atoks a1 ++ map Byte d = map Byte (firstn n d) ++ atoks a1').
  { rewrite Ta1, <- Tp1. destruct (list_eq_dec Z.eq_dec cur []) as [Hz|Hz].
    - replace n with 0%nat by (subst n; rewrite Hz, Nat.min_0_r; reflexivity). reflexivity.
    - rewrite Ha1 by auto. reflexivity. }
  (* all of d matched, or the current message of the other side is exhausted *)
  assert (Hex : skipn n d = [] \/ (skipn n cur = [] /\ done a2 = [])).
  { destruct (Nat.le_ge_cases (length d) (length cur)).
    - left. apply skipn_all2. lia.
    - destruct (Nat.eq_dec (length d) (length cur)). { left. apply skipn_all2. lia. }
      right. split; [apply skipn_all2; lia|]. apply andb_false_iff in Ec. destruct Ec as [Ec|Ec].
      + apply negb_false_iff in Ec. apply Nat.eqb_eq in Ec. tauto.
      + apply Z.ltb_ge in Ec. lia. }
  assert (Hor' : atoks a1' = [] \/ atoks a2' = []).
  { destruct Hor as [Ho|Ho].
    - destruct Hex as [Hx|[Hx Hy]].
      + left. rewrite Ta1, Ho, Hx. reflexivity.
      + right. rewrite Ta2, Hx. cbn. auto.
    - right. rewrite Ho in Tp2. symmetry in Tp2. apply app_eq_nil in Tp2. tauto. }
  assert (Hdn' : done a2 = [] -> done a2' = []) by (intros Hz; unfold a2', amq_set; rewrite Hz; auto).
  destruct me.
  - assert (He1' : e1 = false) by (destruct e1; auto; destruct (He1 eq_refl); discriminate).
    rewrite (any_retr q2' a2' B3). unfold a2' at 1. rewrite amq_set_cur.
    destruct (Nat.eqb_spec (length (skipn n cur)) 0) as [Lz|Lz]; cbn [negb].
    + rewrite (any_msgs q2' a2' B3).
      destruct (Nat.eqb_spec (length (done a2')) 0) as [Lm|Lm]; cbn [negb].
      * assert (Hd2 : done a2' = []) by (destruct (done a2'); cbn in Lm; auto; lia).
        assert (Hempty : atoks a2' = []).
        { rewrite Ta2. assert (done a2 = []). { unfold a2', amq_set in Hd2. destruct (done a2); auto; discriminate. }
          rewrite (R3 H). destruct (skipn n cur); auto. cbn in Lz. lia. }
        rewrite (cinv_nseries _ _ _ C2'). destruct e2.
        { exists q1', q2', true. split; auto. intros X Y E. rewrite Tp2, Hempty, app_nil_r in E.
          unfold tk in E. rewrite !app_assoc in E. rewrite Hpre, <- !app_assoc in E.
          apply app_inv_head in E. rewrite Ta1 in E. unfold atoks in E. rewrite (D1 eq_refl) in E. cbn [flat_map app] in E.
          rewrite <- map_app in E. destruct (open a1 ++ skipn n d); discriminate. }
        { destruct (mput_spec q1' a1' [] true P2) as (q1'' & S1 & S2 & S3). rewrite S1.
          exists q1'', q2', false. split; auto.
          exists (mkAM (done a1' ++ [open a1' ++ []]) []), a2', (map Byte (firstn n d)).
          split; [exact S2|]. split; [exact B3|]. split.
          { destruct C1' as (c & X1 & X2). exists (c + 1). rewrite S3, X1, He1'. split; auto.
            cbn [done]. rewrite app_length. cbn [length]. lia. }
          split; [exact C2'|]. split.
          { unfold tk. rewrite app_assoc, Hpre, <- app_assoc. f_equal. unfold atoks. cbn [done open].
            rewrite flat_map_app. cbn [flat_map message_tokens map]. unfold message_tokens.
            rewrite !app_nil_r, <- !app_assoc. reflexivity. }
          split; [exact Tp2|]. split; [right; auto|]. split; [discriminate|]. intros ->; discriminate. }
      * (* next message of the other side *)
        assert (Hd2 : done a2 <> []). { intros Hz. apply Lm. rewrite Hdn'; auto. }
        destruct Hex as [Hx|[Hx Hy]]; [|tauto].
        destruct (mq_next q2') as [q2'' b] eqn:En.
        destruct (m_step_spec q2' a2' MNext q2'' (MBool b) B3 I) as (a3 & A1 & A2).
        { cbn [m_step]. rewrite En. reflexivity. }
        cbn [spec_mstep] in A2.
        assert (Hs : exists rest, done a2' = [] :: rest /\ rest = tl (done a2)).
        { unfold a2', amq_set. destruct (done a2); [tauto|]. cbn. destruct (skipn n cur); [eauto|cbn in Lz; lia]. }
        destruct Hs as (rest & Hs & Hs2). rewrite Hs in A2. destruct A2 as [A2 A3].
        exists q1', q2'', false. split; auto.
        assert (Ha1e : atoks a1 = []) by (apply Ha1; auto).
        exists a1', a3, (map Byte d ++ [MsgEnd]).
        assert (Ht3 : atoks a2' = MsgEnd :: atoks a3).
        { rewrite A3. unfold atoks. cbn [done open]. rewrite Hs. reflexivity. }
        assert (Hnd : firstn n d = d). { rewrite <- (firstn_skipn n d) at 2. rewrite Hx, app_nil_r. reflexivity. }
        assert (Ha1'e : atoks a1' = []) by (rewrite Ta1, Ha1e, Hx; reflexivity).
        split; [exact P2|]. split; [exact A1|]. split; [exact C1'|]. split.
        { destruct C2' as (c & X1 & X2). rewrite Hs in X2. cbn [length] in X2.
          unfold mq_next in En. 
          destruct ((0 <? mq_nmessages q2') && negb (mq_anyretrievable q2')); inversion En; subst.
          - exists c. cbn [mq_counts done]. rewrite X1. cbn [front hd].
            destruct (Z.eqb_spec c 0); [lia|]. cbn [andb]. split; auto. lia.
          - discriminate. }
        split. { rewrite Ha1e, Ha1'e, app_nil_r. reflexivity. }
        split. { rewrite Tp2, Ht3, Hnd, <- app_assoc. reflexivity. }
        split; [auto|]. split; [exact D1|]. intros E. rewrite He1' in E. discriminate.
    + (* bytes left on the other side *)
      assert (Hcn : cur <> []) by (intros Hz; apply Lz; rewrite Hz, skipn_nil; auto).
      exists q1', q2', true. split; auto. intros X Y E.
      assert (Hx : skipn n d = []).
      { apply skipn_all2. rewrite skipn_length in Lz. lia. }
      assert (Ha1e : atoks a1 = []) by auto.
      unfold tk in E. rewrite !app_assoc in E. rewrite Hpre, Tp2, <- !app_assoc in E. apply app_inv_head in E.
      rewrite Ta1, Ha1e, Hx, Ta2 in E. cbn [map app] in E.
      destruct (skipn n cur); [cbn in Lz; lia|]. discriminate.
  - exists q1', q2', false. split; auto. exists a1', a2', (map Byte (firstn n d)).
    unfold tk. rewrite app_nil_r. repeat (split; [solve [auto]|]). auto.
Qed.

(** * Whole histories *)
Definition own (s : ecf) (ch : bool) : mqueue := if ch then eqb s else eqa s.

(** Well-formed channel stream: whole messages, then the series end. *)
Definition wf (F : list token) : Prop := exists ms, F = flat_map message_tokens ms ++ [SeriesEnd].

Lemma no_se : forall ms, ~ In SeriesEnd (flat_map message_tokens ms).
Proof.
  intros ms H. apply in_flat_map in H. destruct H as (m & _ & H). unfold message_tokens in H.
  apply in_app_iff in H. destruct H as [H|[H|[]]]; [|discriminate]. apply in_map_iff in H. destruct H as (x & H & _). discriminate.
Qed.

Lemma atoks_no_se : forall a, ~ In SeriesEnd (atoks a).
Proof.
  intros a H. unfold atoks in H. apply in_app_iff in H. destruct H as [H|H]; [eapply no_se; eauto|].
  apply in_map_iff in H. destruct H as (x & H & _). discriminate.
Qed.

Lemma wf_se : forall S R, wf (S ++ SeriesEnd :: R) -> R = [] /\ exists ms, S = flat_map message_tokens ms.
Proof.
  intros S R [ms H]. 
  destruct R as [|x R] using rev_ind.
  - apply app_inj_tail in H. destruct H as [-> _]. split; eauto.
  - exfalso. clear IHR. change (SeriesEnd :: R ++ [x]) with ((SeriesEnd :: R) ++ [x]) in H. rewrite app_assoc in H.
    apply app_inj_tail in H. destruct H as [H _]. apply (no_se ms). rewrite <- H. apply in_app_iff. right. left. reflexivity.
Qed.

Lemma wf_bytes : forall p o ms, p ++ map Byte o = flat_map message_tokens ms -> o = [] \/ exists x p', flat_map message_tokens ms = p' ++ [Byte x].
Proof.
  intros p o ms H. destruct o as [|x o] using rev_ind; auto. right. exists x, (p ++ map Byte o).
  rewrite <- H, map_app, app_assoc. reflexivity.
Qed.
Lemma msgs_last : forall ms p x, flat_map message_tokens ms <> p ++ [Byte x].
Proof.
  intros ms p x. destruct ms as [|m ms _] using rev_ind; [intros H; destruct p; discriminate|].
  rewrite flat_map_app. cbn [flat_map]. unfold message_tokens at 2. rewrite app_nil_r, app_assoc. intros H.
  apply app_inj_tail in H. destruct H. discriminate.
Qed.

Definition run_inv (s : ecf) (S1 S2 : list token) (ch : bool) : Prop :=
  emis s = false /\ eout s = [] /\
  exists a1 a2 e1 e2 p, mabs (own s ch) a1 /\ mabs (own s (negb ch)) a2 /\
    cinv (own s ch) a1 e1 /\ cinv (own s (negb ch)) a2 e2 /\
    S1 = p ++ atoks a1 ++ se e1 /\ S2 = p ++ atoks a2 ++ se e2 /\
    (atoks a1 = [] \/ atoks a2 = []) /\ (e2 = true -> done a1 = []) /\ (e1 = true -> done a2 = []) /\
    e1 && e2 = false /\ ~ In SeriesEnd p.

Lemma run_inv_sym : forall s S1 S2 ch, run_inv s S1 S2 ch -> run_inv s S2 S1 (negb ch).
Proof.
  intros s S1 S2 ch (H1 & H2 & a1 & a2 & e1 & e2 & p & H). split; [auto|]. split; [auto|].
  exists a2, a1, e2, e1, p. rewrite negb_involutive. rewrite andb_comm. tauto.
Qed.

Definition post (s : ecf) (F1 F2 R1 R2 : list token) (ch : bool) : Prop :=
  (emis s = true /\ eout s = [0] /\ F1 <> F2) \/
  (emis s = false /\ eout s = [1] /\ F1 = F2 /\ R1 = [] /\ R2 = [] /\
     (exists a1, mabs (own s ch) a1) /\ (exists a2, mabs (own s (negb ch)) a2)).

Definition bounded (F : list token) : Prop := Z.of_nat (length F) < 2 ^ 64.

Lemma small_of : forall p a e R, bounded ((p ++ atoks a ++ se e) ++ R) -> small a.
Proof.
  intros p a e R H. unfold bounded in H. unfold small. destruct (atoks_cur a) as (r & R1 & _).
  rewrite R1 in H. rewrite !app_length, map_length in H. lia.
Qed.

Lemma own_set : forall ch q1' q2' mis out, 
  let '(a, b) := if ch : bool then (q2', q1') else (q1', q2') in
  own (mkE a b mis out) ch = q1' /\ own (mkE a b mis out) (negb ch) = q2'.
Proof. intros [] q1' q2' mis out; cbn; auto. Qed.

Lemma step_put : forall s ch d me S1 S2 R1 R2, run_inv s S1 S2 ch ->
  wf (S1 ++ tk d me ++ R1) -> wf (S2 ++ R2) -> bounded (S2 ++ R2) ->
  exists s', ecf_put s ch d me = Some s' /\
  (run_inv s' (S1 ++ tk d me) S2 ch \/ post s' (S1 ++ tk d me ++ R1) (S2 ++ R2) R1 R2 ch).
Proof.
  intros s ch d me S1 S2 R1 R2 (H1 & H2 & a1 & a2 & e1 & e2 & p & A1 & A2 & C1 & C2 & E1 & E2 & Hor & D1 & D2 & Hee & Hnp) W1 W2 Hb.
  unfold ecf_put. rewrite H1.
  assert (Hq : (if ch then (eqb s, eqa s) else (eqa s, eqb s)) = (own s ch, own s (negb ch))) by (destruct ch; auto).
  rewrite Hq.
  assert (He1 : e1 = true -> d = [] /\ me = false).
  { intros ->. rewrite E1 in W1. cbn [se] in W1. rewrite !app_assoc, <- (app_assoc _ [SeriesEnd]), <- app_assoc in W1. cbn [app] in W1.
    apply wf_se in W1. destruct W1 as [W1 _]. apply app_eq_nil in W1. destruct W1 as [W1 _].
    unfold tk in W1. apply app_eq_nil in W1. destruct W1 as [X1 X2]. split; [destruct d|destruct me]; auto; discriminate. }
  assert (Hsm : small a2) by (rewrite E2 in Hb; eapply small_of; eauto).
  destruct (put_core _ _ a1 a2 e1 e2 d me A1 A2 C1 C2 Hsm Hor D1 D2 He1) as (q1' & q2' & mis & P1 & P2).
  rewrite P1. destruct mis.
  - pose proof (own_set ch q1' q2' true (eout s ++ [0])) as Ho.
    destruct (if ch then (q2', q1') else (q1', q2')) as [a b] eqn:Eab.
    eexists. split; [reflexivity|]. right. left. split; auto. split; [cbn; rewrite H2; auto|].
    assert (Hse1 : e1 = true -> False).
    { intros X. destruct (He1 X) as [-> ->]. subst e1. rewrite andb_true_l in Hee. subst e2.
      (* nothing was put: the comparison cannot fail *)
      unfold ecf_put_q in P1. cbn [length] in P1.
      rewrite (proj2 (Z.ltb_ge _ _)) in P1. 2:{ unfold mq_maxretrievable. rewrite (mq_front _ a2 A2). lia. }
      rewrite andb_false_r in P1. cbn [ecf_compare length Nat.ltb Nat.leb andb] in P1.
      destruct (mq_put (own s ch) [] false); inversion P1. }
    destruct e1; [tauto|]. rewrite E1, E2. cbn [se]. rewrite app_nil_r, <- !app_assoc. intros E. apply app_inv_head in E.
    apply (P2 R1 R2). exact E.
  - destruct P2 as (a1' & a2' & p' & Q1 & Q2 & Q3 & Q4 & Q5 & Q6 & Q7 & Q8 & Q9).
    pose proof (own_set ch q1' q2' false (eout s)) as Ho.
    destruct (if ch then (q2', q1') else (q1', q2')) as [a b] eqn:Eab. destruct Ho as [Ho1 Ho2].
    eexists. split; [reflexivity|]. left. split; auto. split; [exact H2|].
    exists a1', a2', e1, e2, (p ++ p'). rewrite Ho1, Ho2.
    split; [exact Q1|]. split; [exact Q2|]. split; [exact Q3|]. split; [exact Q4|].
    split.
    { rewrite E1. destruct e1; cbn [se].
      - destruct (He1 eq_refl) as [-> ->]. cbn [tk map app] in *. unfold tk in *. cbn [map app] in *. rewrite app_nil_r in *. 
        rewrite Q5, <- !app_assoc. reflexivity.
      - rewrite !app_nil_r, <- !app_assoc, Q5. reflexivity. }
    split. { rewrite E2, Q6, <- !app_assoc. reflexivity. }
    split; [exact Q7|]. split; [exact Q8|]. split; [exact Q9|]. split; [exact Hee|].
    rewrite in_app_iff. intros [X|X]; [auto|]. apply (atoks_no_se a2). rewrite Q6. apply in_app_iff. auto.
Qed.

Lemma step_series : forall s ch S1 S2 R1 R2, run_inv s S1 S2 ch ->
  wf (S1 ++ SeriesEnd :: R1) -> wf (S2 ++ R2) -> bounded (S2 ++ R2) ->
  run_inv (ecf_series s ch) (S1 ++ [SeriesEnd]) S2 ch \/
  post (ecf_series s ch) (S1 ++ SeriesEnd :: R1) (S2 ++ R2) R1 R2 ch.
Proof.
  intros s ch S1 S2 R1 R2 (H1 & H2 & a1 & a2 & e1 & e2 & p & A1 & A2 & C1 & C2 & E1 & E2 & Hor & D1 & D2 & Hee & Hnp) W1 W2 Hb.
  destruct (wf_se _ _ W1) as [-> (ms & Hms)].
  assert (e1 = false). { destruct e1; auto. exfalso. apply (no_se ms). rewrite <- Hms, E1. cbn [se]. rewrite !in_app_iff. cbn. auto. }
  subst e1. cbn [se] in E1. rewrite app_nil_r in E1.
  unfold ecf_series. rewrite H1.
  assert (Hq : (if ch then (eqb s, eqa s) else (eqa s, eqb s)) = (own s ch, own s (negb ch))) by (destruct ch; auto).
  rewrite Hq, (any_retr _ _ A2), (any_msgs _ _ A2).
  destruct (atoks_cur a2) as (r & R3 & R4 & R5 & _).
  destruct (negb (length (amq_current a2) =? 0)%nat || negb (length (done a2) =? 0)%nat) eqn:Ec.
  { right. left. split; [reflexivity|]. split; [cbn; rewrite H2; auto|].
    assert (Hne : exists t x, atoks a2 = t :: x /\ t <> SeriesEnd).
    { destruct (amq_current a2) as [|x c] eqn:Ecur.
      - cbn in Ec. destruct (done a2) eqn:Ed; [discriminate|]. destruct R4 as [r' ->]; [discriminate|]. cbn in R3.
        exists MsgEnd, r'. split; auto. discriminate.
      - cbn in R3. do 2 eexists. split; [exact R3|]. discriminate. }
    destruct Hne as (t & x & Hx & Ht).
    assert (Ha1 : atoks a1 = []) by (destruct Hor; auto; congruence).
    rewrite E1, E2, Ha1, Hx, app_nil_r, <- !app_assoc. intros E. apply app_inv_head in E. cbn in E. congruence. }
  apply orb_false_iff in Ec. destruct Ec as [Ec1 Ec2]. apply negb_false_iff in Ec1, Ec2. apply Nat.eqb_eq in Ec1, Ec2.
  apply length_zero_iff_nil in Ec1, Ec2.
  assert (Ha2 : atoks a2 = []) by (rewrite R3, Ec1, (R5 Ec2); reflexivity).
  rewrite (cinv_nseries _ _ _ C2). destruct e2.
  - right. right. split; [auto|]. split; [cbn; rewrite H2; auto|].
    rewrite E2 in W2. rewrite Ha2 in *. cbn [se app] in *. rewrite <- app_assoc in W2. cbn [app] in W2. apply wf_se in W2.
    destruct W2 as [-> (ms2 & Hms2)].
    assert (Hst : own (mkE (eqa s) (eqb s) false (eout s ++ [1])) ch = own s ch /\ own (mkE (eqa s) (eqb s) false (eout s ++ [1])) (negb ch) = own s (negb ch)) by (destruct ch; auto).
    destruct Hst as [-> ->].
    split; [|repeat split; eauto].
    + rewrite E1, E2, app_nil_r.
      assert (Ho : open a1 = []).
      { unfold atoks in E1. rewrite (D1 eq_refl) in E1. cbn in E1.
        destruct (wf_bytes p (open a1) ms) as [|(x & p' & X)]; [congruence|auto|].
        exfalso. eapply msgs_last; eauto. }
      unfold atoks. rewrite (D1 eq_refl), Ho. cbn. rewrite app_nil_r. reflexivity.
  - left.
    assert (Ho : own (if ch then mkE (eqa s) (mq_seriesend (own s ch)) false (eout s) else mkE (mq_seriesend (own s ch)) (eqb s) false (eout s)) ch = mq_seriesend (own s ch)
       /\ own (if ch then mkE (eqa s) (mq_seriesend (own s ch)) false (eout s) else mkE (mq_seriesend (own s ch)) (eqb s) false (eout s)) (negb ch) = own s (negb ch)) by (destruct ch; auto).
    destruct Ho as [Ho1 Ho2].
    split; [destruct ch; auto|]. split; [destruct ch; auto|].
    exists a1, a2, true, false, p. rewrite Ho1, Ho2.
    split; [exact A1|]. split; [exact A2|]. split.
    { destruct C1 as (c & X1 & X2). exists c. unfold mq_seriesend. cbn. rewrite X1. auto. }
    split; [exact C2|]. split; [rewrite E1, <- app_assoc; reflexivity|]. split; [rewrite E2; reflexivity|].
    repeat split; auto.
Qed.

Lemma run_end : forall s S1 S2 ch, run_inv s S1 S2 ch -> wf S1 -> wf S2 -> False.
Proof.
  intros s S1 S2 ch (H1 & H2 & a1 & a2 & e1 & e2 & p & A1 & A2 & C1 & C2 & E1 & E2 & Hor & D1 & D2 & Hee & Hnp) [m1 W1] [m2 W2].
  assert (X : forall a e m, p ++ atoks a ++ se e = flat_map message_tokens m ++ [SeriesEnd] -> e = true).
  { intros a e m E. destruct e; auto. exfalso.
    assert (In SeriesEnd (p ++ atoks a ++ se false)) by (rewrite E; apply in_app_iff; right; left; auto).
    rewrite !in_app_iff in H. destruct H as [H|[H|[]]]; [auto|]. eapply atoks_no_se; eauto. }
  rewrite (X a1 e1 m1), (X a2 e2 m2) in Hee by congruence. discriminate.
Qed.

Lemma run_post_mis : forall h s, emis s = true -> ecf_run s h = Some s.
Proof.
  induction h as [|e h IH]; intros s H; [reflexivity|]. cbn [ecf_run].
  destruct e; cbn [ecf_step]; [unfold ecf_put|unfold ecf_series]; rewrite H; auto.
Qed.

Lemma run_post_done : forall h s, emis s = false -> (forall ch, stream ch h = []) ->
  (forall ch, exists a, mabs (own s ch) a) -> exists s', ecf_run s h = Some s' /\ eout s' = eout s.
Proof.
  induction h as [|e h IH]; intros s H Hs Ha; [exists s; auto|]. cbn [ecf_run].
  destruct e as [c d me|c].
  - assert (Hd : d = [] /\ me = false).
    { specialize (Hs c). cbn [stream flat_map tokens_of] in Hs. rewrite Bool.eqb_reflx in Hs.
      apply app_eq_nil in Hs. destruct Hs as [Hs _]. apply app_eq_nil in Hs. destruct Hs as [X1 X2].
      split; [destruct d|destruct me]; auto; discriminate. }
    destruct Hd as [-> ->].
    destruct (Ha c) as (a1 & A1). destruct (Ha (negb c)) as (a2 & A2).
    cbn [ecf_step]. unfold ecf_put. rewrite H.
    assert (Hq : (if c then (eqb s, eqa s) else (eqa s, eqb s)) = (own s c, own s (negb c))) by (destruct c; auto).
    rewrite Hq. unfold ecf_put_q. cbn [length].
    rewrite (proj2 (Z.ltb_ge _ _)). 2:{ unfold mq_maxretrievable. rewrite (mq_front _ a2 A2). lia. }
    rewrite andb_false_r. cbn [ecf_compare length Nat.ltb Nat.leb andb].
    destruct (mput_spec _ a1 [] false A1) as (q1' & P1 & P2 & P3). rewrite P1.
    pose proof (own_set c q1' (own s (negb c)) false (eout s)) as Ho.
    destruct (if c then (own s (negb c), q1') else (q1', own s (negb c))) as [x y] eqn:Exy. destruct Ho as [Ho1 Ho2].
    destruct (IH (mkE x y false (eout s))) as (s' & I1 & I2).
    + reflexivity.
    + intros ch. specialize (Hs ch). cbn [stream flat_map] in Hs. apply app_eq_nil in Hs. apply Hs.
    + intros ch. destruct (Bool.bool_dec ch c) as [->|Hne].
      * rewrite Ho1. cbv iota in P2. eexists. exact P2.
      * assert (ch = negb c) by (destruct ch, c; auto; congruence). subst ch. rewrite Ho2. eauto.
    + exists s'. split; auto.
  - specialize (Hs c). cbn [stream flat_map tokens_of] in Hs. rewrite Bool.eqb_reflx in Hs. discriminate.
Qed.

Lemma stream_cons : forall ch e h, stream ch (e :: h) = tokens_of ch e ++ stream ch h.
Proof. reflexivity. Qed.

Definition pair_inv (s : ecf) (S : bool -> list token) : Prop := run_inv s (S false) (S true) false.

Lemma run_any : forall h s S, pair_inv s S ->
  (forall ch, wf (S ch ++ stream ch h)) -> (forall ch, bounded (S ch ++ stream ch h)) ->
  exists s', ecf_run s h = Some s' /\
    ((S false ++ stream false h = S true ++ stream true h /\ eout s' = [1]) \/
     (S false ++ stream false h <> S true ++ stream true h /\ eout s' = [0])).
Proof.
  induction h as [|e h IH]; intros s S HI HW HB.
  { exfalso. pose proof (HW false) as X1. pose proof (HW true) as X2. cbn in X1, X2. rewrite app_nil_r in X1, X2.
    eapply run_end; eauto. }
  (* the channel of the event *)
  set (c := match e with EPut c _ _ => c | ESeriesEnd c => c end).
  set (t := tokens_of c e).
  assert (Hother : tokens_of (negb c) e = []) by (subst c; destruct e; cbn; destruct ch; reflexivity).
  assert (HI' : run_inv s (S c) (S (negb c)) c).
  { clearbody c. destruct c; cbn; auto. apply run_inv_sym in HI. auto. }
  assert (Hst : exists s', ecf_step s e = Some s' /\
     (run_inv s' (S c ++ t) (S (negb c)) c \/
      post s' (S c ++ t ++ stream c h) (S (negb c) ++ stream (negb c) h) (stream c h) (stream (negb c) h) c)).
  { pose proof (HW c) as W1. pose proof (HW (negb c)) as W2. pose proof (HB (negb c)) as B2.
    rewrite stream_cons in W1, W2, B2. rewrite Hother in W2, B2. fold t in W1. cbn [app] in W2, B2.
    subst c t. destruct e as [ch d me|ch]; cbn [tokens_of ecf_step] in *; rewrite Bool.eqb_reflx in *.
    - apply step_put; auto.
    - eexists. split; [reflexivity|]. apply step_series; auto. }
  destruct Hst as (s' & Es & Hst). cbn [ecf_run]. rewrite Es.
  set (S' := fun ch => S ch ++ tokens_of ch e).
  assert (HF : forall ch, S ch ++ stream ch (e :: h) = S' ch ++ stream ch h) by (intros; rewrite stream_cons, app_assoc; reflexivity).
  assert (HSc : S' c = S c ++ t) by reflexivity.
  assert (HSn : S' (negb c) = S (negb c)) by (unfold S'; rewrite Hother, app_nil_r; reflexivity).
  rewrite !HF.
  destruct Hst as [Hr|Hp].
  - apply (IH s' S').
    + rewrite <- HSc, <- HSn in Hr. clearbody c. destruct c; cbn [negb] in Hr; auto. apply run_inv_sym in Hr. exact Hr.
    + intros. rewrite <- HF. auto.
    + intros. rewrite <- HF. auto.
  - rewrite app_assoc, <- HSc, <- HSn in Hp.
    destruct Hp as [(P1 & P2 & P3)|(P1 & P2 & P3 & P4 & P5 & P6 & P7)].
    + rewrite run_post_mis by auto. exists s'. split; auto. right. split; auto.
      clearbody c. destruct c; cbn [negb] in P3; auto.
    + destruct P6 as [a1 A1]. destruct P7 as (a2 & A2).
      destruct (run_post_done h s' P1) as (s'' & Q1 & Q2).
      * intros ch. destruct (Bool.bool_dec ch c) as [->|Hne]; auto.
        assert (ch = negb c) by (destruct ch, c; auto; congruence). subst; auto.
      * intros ch. destruct (Bool.bool_dec ch c) as [->|Hne]; eauto.
        assert (ch = negb c) by (destruct ch, c; auto; congruence). subst; eauto.
      * exists s''. split; auto. left. split; [|congruence]. clearbody c. destruct c; cbn [negb] in P3; auto.
Qed.
