From Coq Require Import ZArith List Bool Arith Lia Permutation.
From Verif Require Import Base Gf2Spec Gf32Model Gf32Proofs Gf32FieldProofs InterpModel InterpSpec InterpGfProofs IdaModel IdaSpec IdaProofs.
Import ListNotations.

Lemma sent_app : forall c a b, sent c (a ++ b) = sent c a ++ sent c b.
Proof. induction a as [|[d s|d] a IH]; intros b; cbn [app sent]; [reflexivity| |auto]. rewrite IH, app_assoc. reflexivity. Qed.
Lemma ended_app : forall c a b, ended c (a ++ b) = (ended c a + ended c b)%nat.
Proof. induction a as [|[d s|d] a IH]; intros b; cbn [app ended]; [reflexivity|auto|]. rewrite IH. lia. Qed.
Lemma word_bytes_app : forall f k n m, word_bytes f k n ++ word_bytes f (k + n) m = word_bytes f k (n + m).
Proof. intros. unfold word_bytes. rewrite <- concat_app, <- map_app, <- seq_app. reflexivity. Qed.
Lemma word_bytes_length : forall f n k, length (word_bytes f k n) = (4 * n)%nat.
Proof. intros f. induction n as [|n IH]; intros k; [reflexivity|]. unfold word_bytes in *. cbn [seq map concat]. rewrite app_length, IH, be_bytes_length. lia. Qed.

Lemma app_split : forall (A : Type) (a b x y : list A), length a = length b -> a ++ x = b ++ y -> a = b /\ x = y.
Proof. induction a as [|u a IH]; destruct b as [|v b]; intros x y L H; cbn in *; try lia; [auto|]. injection H as -> H. destruct (IH b x y ltac:(lia) H). subst. auto. Qed.
Lemma map_const_repeat : forall (l : list Z), map (fun _ => @nil Z) l = repeat [] (length l).
Proof. induction l as [|a l IH]; cbn; [reflexivity|]. rewrite IH. reflexivity. Qed.
Section Sinks.
  Variables (cut : list Z -> list (list Z)) (t : nat) (outs : list Z) (prop : Z) (W : nat -> Z -> Z).
  Lemma column_wrows : forall i n k, (i < length outs)%nat -> column i (wrows outs W k n) = word_bytes (fun j => W j (nth i outs 0%Z)) k n.
  Proof.
    intros i n k H. unfold column, wrows, word_bytes. rewrite map_map. f_equal. apply map_ext. intros j. f_equal. rewrite (nth_indep _ 0%Z (W j 0%Z)) by (rewrite map_length; auto). apply map_nth.
  Qed.
  (** a cut of the rows into groups *)
  Lemma groups : forall g gs k n, concat (g :: gs) = wrows outs W k n -> exists n1 n2, n = (n1 + n2)%nat /\ g = wrows outs W k n1 /\ concat gs = wrows outs W (k + n1) n2.
  Proof.
    intros g gs k n H. cbn [concat] in H. assert (L : (length g + length (concat gs))%nat = n) by (rewrite <- app_length, H; unfold wrows; rewrite map_length, seq_length; reflexivity).
    exists (length g), (length (concat gs)). split; [lia|]. rewrite <- L in H. rewrite <- wrows_split in H.
    assert (L1 : length g = length (wrows outs W k (length g))) by (unfold wrows; rewrite map_length, seq_length; reflexivity).
    apply app_split; auto.
  Qed.
  Lemma combine_seq_map : forall (oq : list (list Z)) (F : nat -> list Z -> list Z), map (fun p => F (fst p) (snd p)) (combine (seq 0 (length oq)) oq) = map (fun i => F i (nth i oq [])) (seq 0 (length oq)).
  Proof.
    intros oq F. assert (G : forall l k, map (fun p => F (fst p) (snd p)) (combine (seq k (length l)) l) = map (fun i => F i (nth (i - k) l [])) (seq k (length l))).
    { induction l as [|a l IH]; intros k; [reflexivity|]. cbn [length seq combine map fst snd]. rewrite Nat.sub_diag. cbn [nth]. f_equal. rewrite IH. apply map_ext_in. intros i Hi. apply in_seq in Hi. replace (i - k)%nat with (S (i - S k)) by lia. reflexivity. }
    rewrite G. apply map_ext. intros i. rewrite Nat.sub_0_r. reflexivity.
  Qed.

  (* -------------------------------------------------------------- RawIDA *)
  Lemma sent_zip : forall (f : Z -> list Z) l o, NoDup l -> sent (Some o) (map (fun c => IData (Some c) (f c)) l) = if in_dec Z.eq_dec o l then f o else [].
  Proof.
    intros f. induction l as [|a l IH]; intros o ND; [reflexivity|]. apply NoDup_cons_iff in ND. destruct ND as [N1 N2]. cbn [map sent]. rewrite IH by auto. destruct (Z.eqb_spec o a) as [->|N].
    - destruct (in_dec Z.eq_dec a l); [contradiction|]. rewrite app_nil_r. destruct (in_dec Z.eq_dec a (a :: l)) as [|Q]; [reflexivity|]. exfalso. apply Q. cbn. auto.
    - cbn [app]. destruct (in_dec Z.eq_dec o l) as [i|i]; destruct (in_dec Z.eq_dec o (a :: l)) as [j|j]; try reflexivity; exfalso; [apply j; cbn; auto|]. destruct j as [->|j]; auto.
  Qed.
  Lemma sent_none : forall (l : list Z) f, sent None (map (fun c => IData (Some c) (f c)) l) = []. Proof. induction l; intros; cbn; auto. Qed.
  Lemma ended_data : forall (l : list Z) f c, ended c (map (fun d => IData (Some d) (f d)) l) = 0%nat. Proof. induction l; intros; cbn; auto. Qed.
  Lemma nth_repeat_nil : forall i m, nth i (repeat (@nil Z) m) [] = []. Proof. induction i as [|i IH]; destruct m; cbn; auto. Qed.
  Lemma map_seq_nth : forall (A : Type) (F : Z -> A) (l : list Z), map (fun i => F (nth i l 0%Z)) (seq 0 (length l)) = map F l.
  Proof. intros A F l. induction l as [|a l IH]; [reflexivity|]. cbn [length seq map nth]. f_equal. rewrite <- seq_shift, map_map. apply IH. Qed.
  Lemma combine_map_self : forall (A B : Type) (f : A -> B) (l : list A), combine l (map f l) = map (fun a => (a, f a)) l.
  Proof. intros. induction l as [|a l IH]; cbn; [reflexivity|]. rewrite IH. reflexivity. Qed.
  Definition raw_spec (k n : nat) (e : list ida_ev) : Prop :=
    (forall o, In o outs -> sent (Some o) e = word_bytes (fun j => W j o) k n) /\ (forall o, ~ In o outs -> sent (Some o) e = []) /\ sent None e = [] /\ (forall c, ended c e = 0%nat).
  Lemma snk_raw : forall qu k n, NoDup outs -> exists e, snk KRaw t outs prop (repeat [] (length outs), qu) (wrows outs W k n) = ((repeat [] (length outs), qu), e) /\ raw_spec k n e.
  Proof.
    intros qu k n ND. unfold snk. cbn [fst snd]. rewrite repeat_length.
    assert (OQ : map (fun p => snd p ++ column (fst p) (wrows outs W k n)) (combine (seq 0 (length outs)) (repeat [] (length outs))) = map (fun o => word_bytes (fun j => W j o) k n) outs).
    { pose proof (combine_seq_map (repeat [] (length outs)) (fun i s => s ++ column i (wrows outs W k n))) as Q. rewrite repeat_length in Q. rewrite Q.
      rewrite <- (map_seq_nth _ (fun o => word_bytes (fun j => W j o) k n) outs). apply map_ext_in. intros i Hi. apply in_seq in Hi. rewrite nth_repeat_nil. cbn [app]. apply column_wrows. lia. }
    rewrite OQ. destruct outs as [|o0 os] eqn:Eo.
    { exists []. cbn. split; [reflexivity|]. unfold raw_spec. rewrite Eo. split; [intros o []|]. auto. }
    rewrite <- Eo in *. assert (Hh : hd [] (map (fun o => word_bytes (fun j => W j o) k n) outs) = word_bytes (fun j => W j o0) k n) by (rewrite Eo; reflexivity). rewrite Hh, word_bytes_length.
    destruct n as [|n].
    - exists []. replace (Nat.ltb 0 (length outs) && Nat.ltb 0 (4 * 0)) with false by (cbn; symmetry; apply andb_false_r). split.
      + f_equal. f_equal. clear. induction outs as [|a l IH]; [reflexivity|]. cbn [map length repeat]. rewrite IH. reflexivity.
      + split; [reflexivity|]. auto.
    - exists (map (fun c => IData (Some c) (word_bytes (fun j => W j c) k (S n))) outs).
      replace (Nat.ltb 0 (length outs) && Nat.ltb 0 (4 * S n)) with true by (rewrite Eo; reflexivity). split.
      + cbn [ida_flush fst snd ia_oq ia_queue ia_outs]. f_equal. rewrite combine_map_self, map_map. reflexivity.
      + split; [|split; [|split]].
        * intros o Ho. rewrite (sent_zip (fun c => word_bytes (fun j => W j c) k (S n))) by auto. destruct (in_dec Z.eq_dec o outs); [reflexivity|contradiction].
        * intros o Ho. rewrite (sent_zip (fun c => word_bytes (fun j => W j c) k (S n))) by auto. destruct (in_dec Z.eq_dec o outs); [contradiction|reflexivity].
        * apply sent_none.
        * intros. apply ended_data.
  Qed.
  Lemma snks_raw : forall gs qu k n, NoDup outs -> concat gs = wrows outs W k n -> exists e, snks KRaw t outs prop (repeat [] (length outs), qu) gs = ((repeat [] (length outs), qu), e) /\ raw_spec k n e.
  Proof.
    induction gs as [|g gs IH]; intros qu k n ND H.
    - cbn [concat] in H. assert (n = 0)%nat by (destruct n; [reflexivity|discriminate]). subst n. exists []. split; [reflexivity|]. split; [reflexivity|]. auto.
    - destruct (groups g gs k n H) as (n1 & n2 & -> & -> & H2). destruct (snk_raw qu k n1 ND) as (e1 & E1 & A1 & A2 & A3 & A4). destruct (IH qu (k + n1)%nat n2 ND H2) as (e2 & E2 & B1 & B2 & B3 & B4).
      cbn [snks]. rewrite E1, E2. exists (e1 ++ e2). split; [reflexivity|]. split; [|split; [|split]].
      + intros o Ho. rewrite sent_app, A1, B1 by auto. apply word_bytes_app.
      + intros o Ho. rewrite sent_app, A2, B2 by auto. reflexivity.
      + rewrite sent_app, A3, B3. reflexivity.
      + intros c. rewrite ended_app, A4, B4. reflexivity.
  Qed.

  (* -------------------------------------------------------------- SecretRecovery *)
  Variable x : Z.
  Definition keep (pad : bool) (n : nat) : nat := if pad then Nat.min 4 n else 0%nat.
  Lemma snk_secret : forall pad qu q k n, outs = [x] -> length q = keep pad (4 * k) -> exists e q', snk (KSecret pad) t outs prop ([q], qu) (wrows outs W k n) = (([q'], qu), e) /\
    sent None e ++ q' = q ++ word_bytes (fun j => W j x) k n /\ length q' = keep pad (4 * (k + n)) /\ (forall c, ended c e = 0%nat).
  Proof.
    intros pad qu q k n HO Lq. unfold snk. cbn [fst snd length seq combine map hd]. rewrite column_wrows by (rewrite HO; cbn; lia). replace (nth 0 outs 0%Z) with x by (rewrite HO; reflexivity).
    set (q1 := q ++ word_bytes (fun j => W j x) k n). assert (L1 : length q1 = (keep pad (4 * k) + 4 * n)%nat) by (unfold q1; rewrite app_length, word_bytes_length, Lq; reflexivity).
    replace (Nat.ltb 0 (length outs)) with true by (rewrite HO; reflexivity). cbn [andb]. destruct (Nat.ltb_spec 0 (length q1)) as [L|L].
    - cbn [ida_flush fst snd ia_oq ia_queue hd tl]. eexists _, _. split; [reflexivity|]. cbn [sent app]. rewrite app_nil_r. split; [apply firstn_skipn|]. split; [|reflexivity].
      rewrite skipn_length. destruct pad; cbn [keep] in *; lia.
    - eexists [], q1. split; [reflexivity|]. split; [reflexivity|]. split; [|reflexivity]. destruct pad; cbn [keep] in *; lia.
  Qed.
  Lemma snks_secret : forall pad gs qu q k n, outs = [x] -> length q = keep pad (4 * k) -> concat gs = wrows outs W k n -> exists e q', snks (KSecret pad) t outs prop ([q], qu) gs = (([q'], qu), e) /\
    sent None e ++ q' = q ++ word_bytes (fun j => W j x) k n /\ length q' = keep pad (4 * (k + n)) /\ (forall c, ended c e = 0%nat).
  Proof.
    intros pad. induction gs as [|g gs IH]; intros qu q k n HO Lq H.
    - cbn [concat] in H. assert (n = 0)%nat by (destruct n; [reflexivity|discriminate]). subst n. exists [], q. rewrite Nat.add_0_r. split; [reflexivity|]. split; [cbn; symmetry; apply app_nil_r|]. auto.
    - destruct (groups g gs k n H) as (n1 & n2 & -> & -> & H2). destruct (snk_secret pad qu q k n1 HO Lq) as (e1 & q1 & E1 & A1 & A2 & A3). destruct (IH qu q1 (k + n1)%nat n2 HO A2 H2) as (e2 & q2 & E2 & B1 & B2 & B3).
      cbn [snks]. rewrite E1, E2. exists (e1 ++ e2), q2. split; [reflexivity|]. split; [|split].
      + rewrite sent_app, <- app_assoc, B1, app_assoc, A1, <- app_assoc, word_bytes_app. reflexivity.
      + rewrite B2. f_equal. lia.
      + intros c. rewrite ended_app, A3, B3. reflexivity.
  Qed.

  (* -------------------------------------------------------------- InformationRecovery *)
  (** the bytes of several streams, taken one from each in turn *)
  Definition deal (f : Z -> list Z) (n : nat) : list Z := concat (map (fun i => map (fun o => nth i (f o) 0%Z) outs) (seq 0 n)).
  Lemma deal_length : forall f n, length (deal f n) = (n * length outs)%nat.
  Proof. intros f n. unfold deal. generalize 0%nat as b. induction n as [|n IH]; intros b; [reflexivity|]. cbn [seq map concat]. rewrite app_length, map_length, IH. lia. Qed.
  Lemma deal_app : forall f g n m, (forall o, length (f o) = n) -> deal f n ++ deal g m = deal (fun o => f o ++ g o) (n + m).
  Proof.
    intros f g n m L. unfold deal. rewrite seq_app, map_app, concat_app. f_equal.
    - f_equal. apply map_ext_in. intros i Hi. apply in_seq in Hi. apply map_ext. intros o. rewrite app_nth1 by (rewrite L; lia). reflexivity.
    - f_equal. cbn [Nat.add]. replace (seq n m) with (seq (n + 0) m) by (f_equal; lia). assert (Q : forall b, map (fun i => map (fun o => nth i (g o) 0%Z) outs) (seq b m) = map (fun i => map (fun o => nth i (f o ++ g o) 0%Z) outs) (seq (n + b) m)).
      { clear - L. induction m as [|m IH]; intros b; [reflexivity|]. cbn [seq map]. f_equal; [|rewrite <- Nat.add_succ_r; apply IH]. apply map_ext. intros o. rewrite app_nth2 by (rewrite L; lia). rewrite L. f_equal. lia. }
      apply Q.
  Qed.
  Lemma firstn1_skipn : forall (l : list Z) i, (i < length l)%nat -> firstn 1 (skipn i l) = [nth i l 0%Z].
  Proof. induction l as [|a l IH]; intros i H; cbn [length] in H; [lia|]. destruct i as [|i]; [reflexivity|]. cbn [skipn nth]. apply IH. lia. Qed.
  Lemma concat_singles : forall (A : Type) (f : A -> Z) (l : list A), concat (map (fun a => [f a]) l) = map f l.
  Proof. induction l as [|a l IH]; cbn; [reflexivity|]. rewrite IH. reflexivity. Qed.
  Lemma snk_info : forall pad q k n, (1 <= length outs)%nat -> length outs = t -> (pad = true -> (4 * t <= length q)%nat \/ k = 0%nat) -> exists e q', snk (KInfo pad) t outs prop (repeat [] (length outs), q) (wrows outs W k n) = ((repeat [] (length outs), q'), e) /\
    sent None e ++ q' = q ++ deal (fun o => word_bytes (fun j => W j o) k n) (4 * n) /\ (length q' = if Nat.eqb n 0 then length q else if pad then Nat.min (4 * t) (length q + 4 * n * t) else 0%nat) /\ (forall c, ended c e = 0%nat).
  Proof.
    intros pad q k n HO Ht Hq. unfold snk. cbn [fst snd]. rewrite repeat_length.
    assert (OQ : map (fun p => snd p ++ column (fst p) (wrows outs W k n)) (combine (seq 0 (length outs)) (repeat [] (length outs))) = map (fun o => word_bytes (fun j => W j o) k n) outs).
    { pose proof (combine_seq_map (repeat [] (length outs)) (fun i s => s ++ column i (wrows outs W k n))) as Q. rewrite repeat_length in Q. rewrite Q.
      rewrite <- (map_seq_nth _ (fun o => word_bytes (fun j => W j o) k n) outs). apply map_ext_in. intros i Hi. apply in_seq in Hi. rewrite nth_repeat_nil. cbn [app]. apply column_wrows. lia. }
    rewrite OQ. destruct outs as [|o0 os] eqn:Eo; [cbn in HO; lia|]. rewrite <- Eo in *. assert (Hh : hd [] (map (fun o => word_bytes (fun j => W j o) k n) outs) = word_bytes (fun j => W j o0) k n) by (rewrite Eo; reflexivity). rewrite Hh, word_bytes_length.
    destruct n as [|n].
    - exists [], q. replace (Nat.ltb 0 (length outs) && Nat.ltb 0 (4 * 0)) with false by (cbn; symmetry; apply andb_false_r). split.
      + f_equal. f_equal. clear. induction outs as [|a l IH]; [reflexivity|]. cbn [map length repeat]. rewrite IH. reflexivity.
      + split; [cbn; symmetry; apply app_nil_r|]. auto.
    - replace (Nat.ltb 0 (length outs) && Nat.ltb 0 (4 * S n)) with true by (rewrite Eo; reflexivity). cbn [ida_flush fst snd ia_oq ia_queue ia_outs ia_thr]. rewrite Hh, word_bytes_length.
      assert (DQ : concat (map (fun i => concat (map (fun j => firstn 1 (skipn i (nth j (map (fun o => word_bytes (fun j0 => W j0 o) k (S n)) outs) []))) (seq 0 (length outs)))) (seq 0 (4 * S n))) = deal (fun o => word_bytes (fun j => W j o) k (S n)) (4 * S n)).
      { unfold deal. f_equal. apply map_ext_in. intros i Hi. apply in_seq in Hi. rewrite <- (map_seq_nth _ (fun o => nth i (word_bytes (fun j => W j o) k (S n)) 0%Z) outs). rewrite <- concat_singles. f_equal. apply map_ext_in. intros j Hj. apply in_seq in Hj.
        rewrite (nth_indep _ [] ((fun o => word_bytes (fun j0 => W j0 o) k (S n)) 0%Z)) by (rewrite map_length; lia). rewrite (map_nth (fun o => word_bytes (fun j0 => W j0 o) k (S n))). apply firstn1_skipn. rewrite word_bytes_length. lia. }
      rewrite DQ. eexists _, _. split; [f_equal; f_equal; rewrite map_map; rewrite <- (map_const_repeat outs); apply map_ext; intros o; apply skipn_all2; rewrite word_bytes_length; lia|].
      cbn [sent app]. rewrite app_nil_r. split; [apply firstn_skipn|]. split; [|reflexivity]. rewrite skipn_length, app_length, deal_length. cbn [Nat.eqb]. destruct pad; [|lia]. rewrite Ht. lia.
  Qed.
  Lemma snks_info : forall (pad : bool) gs (q : list Z) k n, (1 <= length outs)%nat -> length outs = t -> length q = (if pad then Nat.min (4 * t) (4 * k * t) else 0%nat) -> concat gs = wrows outs W k n ->
    exists e q', snks (KInfo pad) t outs prop (repeat [] (length outs), q) gs = ((repeat [] (length outs), q'), e) /\
    sent None e ++ q' = q ++ deal (fun o => word_bytes (fun j => W j o) k n) (4 * n) /\ length q' = (if pad then Nat.min (4 * t) (4 * (k + n) * t) else 0%nat) /\ (forall c, ended c e = 0%nat).
  Proof.
    intros pad. induction gs as [|g gs IH]; intros q k n HO Ht Lq H.
    - cbn [concat] in H. assert (n = 0)%nat by (destruct n; [reflexivity|discriminate]). subst n. exists [], q. rewrite Nat.add_0_r. split; [reflexivity|]. split; [cbn; symmetry; apply app_nil_r|]. auto.
    - destruct (groups g gs k n H) as (n1 & n2 & -> & -> & H2). destruct (snk_info pad q k n1 HO Ht) as (e1 & q1 & E1 & A1 & A2 & A3). { intros ->. destruct k as [|k]; [auto|left; nia]. }
      assert (A2' : length q1 = (if pad then Nat.min (4 * t) (4 * (k + n1) * t) else 0%nat)). { rewrite A2. destruct n1 as [|n1]; cbn [Nat.eqb]; [rewrite Nat.add_0_r; exact Lq|]. destruct pad; [|reflexivity]. rewrite Lq. nia. }
      destruct (IH q1 (k + n1)%nat n2 HO Ht A2' H2) as (e2 & q2 & E2 & B1 & B2 & B3).
      cbn [snks]. rewrite E1, E2. exists (e1 ++ e2), q2. split; [reflexivity|]. split; [|split].
      + rewrite sent_app, <- app_assoc, B1, app_assoc, A1, <- app_assoc. f_equal. rewrite deal_app by (intros; apply word_bytes_length). rewrite <- Nat.mul_add_distr_l. unfold deal. f_equal. apply map_ext. intros i. apply map_ext. intros o. rewrite word_bytes_app. reflexivity.
      + rewrite B2. replace (k + n1 + n2)%nat with (k + (n1 + n2))%nat by lia. reflexivity.
      + intros c. rewrite ended_app, A3, B3. reflexivity.
  Qed.
End Sinks.
