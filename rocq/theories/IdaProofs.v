From Coq Require Import ZArith List Bool Arith Lia Permutation.
From Verif Require Import Base Gf2Spec Gf32Model Gf32Proofs Gf32FieldProofs InterpModel InterpSpec InterpGfProofs IdaModel IdaSpec.
Import ListNotations.

(* ---------------------------------------------------------------- small lemmas *)
Lemma index_of_some : forall c l i, index_of c l = Some i -> (i < length l)%nat /\ nth i l 0%Z = c.
Proof.
  induction l as [|a l IH]; intros i E; cbn in E; [discriminate|]. destruct (Z.eqb_spec a c) as [->|N].
  - injection E as <-. cbn. split; [lia|reflexivity].
  - destruct (index_of c l) as [j|]; [|discriminate]. injection E as <-. destruct (IH j eq_refl). cbn. split; [lia|auto].
Qed.
Lemma index_of_none : forall c l, index_of c l = None -> ~ In c l.
Proof.
  induction l as [|a l IH]; intros E; cbn in *; [tauto|]. destruct (Z.eqb_spec a c) as [->|N]; [discriminate|]. destruct (index_of c l); [discriminate|]. intros [H|H]; [auto|]. apply IH; auto.
Qed.
Lemma index_of_in : forall c l, In c l -> exists i, index_of c l = Some i.
Proof. intros c l H. destruct (index_of c l) as [i|] eqn:E; [eauto|]. apply index_of_none in E. tauto. Qed.
Section SetNth.
  Variable f : mq -> mq.
  Local Notation upd1 i := (fun p : nat * (Z * mq) => if Nat.eqb (fst p) i then (fst (snd p), f (snd (snd p))) else snd p).
  Lemma set_none : forall (l : list (Z * mq)) k i, (i < k)%nat -> map (upd1 i) (combine (seq k (length l)) l) = l.
  Proof. induction l as [|a l IH]; intros k i H; cbn [length seq combine map fst snd]; [reflexivity|]. destruct (Nat.eqb_spec k i); [lia|]. rewrite IH by lia. reflexivity. Qed.
  Lemma set_nth : forall ids (q : Z -> mq) c k i, NoDup ids -> index_of c ids = Some i ->
    map (upd1 (k + i)%nat) (combine (seq k (length (map (fun d => (d, q d)) ids))) (map (fun d => (d, q d)) ids)) = map (fun d => (d, if (d =? c)%Z then f (q d) else q d)) ids.
  Proof.
    induction ids as [|a ids IH]; intros q c k i ND E; cbn in E; [discriminate|]. apply NoDup_cons_iff in ND. destruct ND as [N1 N2]. cbn [map length seq combine fst snd].
    destruct (Z.eqb_spec a c) as [->|N].
    - injection E as <-. rewrite Nat.add_0_r, Nat.eqb_refl. f_equal. rewrite set_none by lia. apply map_ext_in. intros d Hd. destruct (Z.eqb_spec d c) as [->|]; [tauto|reflexivity].
    - destruct (index_of c ids) as [j|] eqn:Ej; [|discriminate]. injection E as <-. destruct (Nat.eqb_spec k (k + S j)); [lia|]. f_equal.
      replace (k + S j)%nat with (S k + j)%nat by lia. apply IH; auto.
  Qed.
End SetNth.

(* ---------------------------------------------------------------- the queues of one round *)
Definition updf {A : Type} (f : Z -> A) (c : Z) (v : A) : Z -> A := fun d => if (d =? c)%Z then v else f d.
Lemma updf_same : forall (A : Type) (f : Z -> A) c v, updf f c v c = v. Proof. intros. unfold updf. rewrite Z.eqb_refl. reflexivity. Qed.
Lemma updf_other : forall (A : Type) (f : Z -> A) c v d, d <> c -> updf f c v d = f d. Proof. intros. unfold updf. destruct (Z.eqb_spec d c); [contradiction|reflexivity]. Qed.
Definition qof (R : Z -> list Z) (En : Z -> bool) (k : nat) (c : Z) : mq := skipn (4 * k) (R c) :: (if En c then [[]] else []).
Definition view (R : Z -> list Z) (En : Z -> bool) (k : nat) (ids : list Z) : list (Z * mq) := map (fun c => (c, qof R En k c)) ids.
Definition legit (R : Z -> list Z) (En : Z -> bool) (k : nat) (c : Z) : bool := En c || Nat.leb 4 (length (skipn (4 * k) (R c))).
Lemma count_le : forall (A : Type) (f : A -> bool) l, (count f l <= length l)%nat. Proof. intros. unfold count. induction l as [|a l IH]; cbn; [lia|]. destruct (f a); cbn; lia. Qed.
Lemma count_all : forall (A : Type) (f : A -> bool) l, count f l = length l -> forall a, In a l -> f a = true.
Proof.
  unfold count. induction l as [|a l IH]; intros E b H; [destruct H|]; destruct H as [->|H]; cbn in E.
  - destruct (f b) eqn:F; auto. pose proof (count_le _ f l) as C. unfold count in C. lia.
  - apply IH; auto. destruct (f a); cbn in E; [lia|]. pose proof (count_le _ f l) as C. unfold count in C. lia.
Qed.
Lemma count_true : forall (A : Type) (f : A -> bool) l, (forall a, In a l -> f a = true) -> count f l = length l.
Proof. unfold count. induction l as [|a l IH]; intros H; cbn; [reflexivity|]. rewrite H by (cbn; auto). cbn. rewrite IH by (intros; apply H; cbn; auto). reflexivity. Qed.
Lemma count_map : forall (A B : Type) (g : A -> B) (f : B -> bool) l, count f (map g l) = count (fun a => f (g a)) l.
Proof. unfold count. induction l as [|a l IH]; cbn; [reflexivity|]. destruct (f (g a)); cbn; auto. Qed.
Lemma count_ext : forall (A : Type) (f g : A -> bool) l, (forall a, In a l -> f a = g a) -> count f l = count g l.
Proof. unfold count. induction l as [|a l IH]; intros H; cbn; [reflexivity|]. rewrite (H a) by (cbn; auto). destruct (g a); cbn; rewrite IH by (intros; apply H; cbn; auto); reflexivity. Qed.
Lemma count_mono : forall (A : Type) (f g : A -> bool) l, (forall a, In a l -> f a = true -> g a = true) -> (count f l <= count g l)%nat.
Proof. unfold count. induction l as [|a l IH]; intros H; cbn; [lia|]. assert (I := IH ltac:(intros; apply H; cbn; auto)). destruct (f a) eqn:Fa; [rewrite (H a ltac:(cbn; auto) Fa); cbn; lia|]. destruct (g a); cbn; lia. Qed.
Lemma count_upd : forall (f g : Z -> bool) l c, NoDup l -> In c l -> f c = false -> g c = true -> (forall d, d <> c -> f d = g d) -> count g l = S (count f l).
Proof.
  unfold count. induction l as [|a l IH]; intros c ND HI Fc Gc H; [destruct HI|]. apply NoDup_cons_iff in ND. destruct ND as [N1 N2]. cbn. destruct HI as [->|HI].
  - rewrite Fc, Gc. cbn. f_equal. f_equal. apply filter_ext_in. intros d Hd. symmetry. apply H. intros ->. auto.
  - rewrite (H a) by (intros ->; auto). destruct (g a); cbn; rewrite (IH c N2 HI Fc Gc H); reflexivity.
Qed.
Lemma count_zero : forall (A : Type) (f : A -> bool) l, count f l = 0%nat -> forall a, In a l -> f a = false.
Proof. unfold count. induction l as [|a l IH]; intros E b H; [destruct H|]; destruct H as [->|H]; cbn in E; destruct (f b) eqn:F; auto; try (cbn in E; lia); destruct (f a); cbn in E; try lia; rewrite <- F; apply IH; auto. Qed.
Lemma count_pos : forall (A : Type) (f : A -> bool) l, (0 < count f l)%nat -> exists a, In a l /\ f a = true.
Proof. unfold count. induction l as [|a l IH]; intros E; cbn in E; [lia|]. destruct (f a) eqn:F; [exists a; cbn; auto|]. destruct (IH E) as (b & H & Q). exists b. cbn. auto. Qed.

Lemma view_ids : forall R En k ids, map fst (view R En k ids) = ids. Proof. intros. unfold view. rewrite map_map. cbn. apply map_id. Qed.
Lemma skipn_4S : forall (A : Type) k (l : list A), skipn 4 (skipn (4 * k) l) = skipn (4 * S k) l.
Proof. intros. rewrite skipn_skipn_add. f_equal. lia. Qed.
Lemma view_skip : forall R En k ids, map (fun p => (fst p, mq_skip4 (snd p))) (view R En k ids) = view R En (S k) ids.
Proof. intros. unfold view. rewrite map_map. apply map_ext. intros c. cbn [fst snd]. unfold qof. cbn [mq_skip4]. rewrite skipn_4S. reflexivity. Qed.
Lemma view_words : forall R En k ids, map (fun p => mq_word (snd p)) (view R En k ids) = map (fun c => word_at (R c) k) ids.
Proof. intros. unfold view. rewrite map_map. reflexivity. Qed.
Lemma view_ready : forall R En k ids, count (fun p => mq_ready false (snd p)) (view R En k ids) = count (legit R En k) ids.
Proof. intros. unfold view. rewrite count_map. apply count_ext. intros c _. unfold mq_ready, legit, qof, mq_messages. cbn [fst snd mq_front hd]. destruct (En c); reflexivity. Qed.
Lemma view_any : forall R En k ids, count (fun p => mq_ready true (snd p)) (view R En k ids) = count (fun c => Nat.ltb 0 (length (skipn (4 * k) (R c)))) ids.
Proof. intros. unfold view. rewrite count_map. reflexivity. Qed.
Lemma view_total : forall R En k ids, list_sum (map (fun p => length (mq_front (snd p))) (view R En k ids)) = list_sum (map (fun c => length (R c) - 4 * k)%nat ids).
Proof. intros. unfold view. rewrite map_map. f_equal. apply map_ext. intros c. cbn. rewrite skipn_length. lia. Qed.
Lemma list_sum_le : forall (f g : Z -> nat) l, (forall c, In c l -> (f c <= g c)%nat) -> (list_sum (map f l) <= list_sum (map g l))%nat.
Proof. induction l as [|a l IH]; intros H; cbn; [lia|]. assert (I := IH ltac:(intros; apply H; cbn; auto)). specialize (H a ltac:(cbn; auto)). unfold list_sum in *. cbn in *. lia. Qed.
Lemma list_sum_lt : forall (f g : Z -> nat) l c, (forall c, In c l -> (f c <= g c)%nat) -> In c l -> (f c < g c)%nat -> (list_sum (map f l) < list_sum (map g l))%nat.
Proof.
  induction l as [|a l IH]; intros c H HI L; [destruct HI|]. cbn. pose proof (list_sum_le f g l ltac:(intros; apply H; cbn; auto)) as Q. specialize (H a ltac:(cbn; auto)) as Ha. destruct HI as [->|HI].
  - unfold list_sum in *. cbn in *. lia.
  - specialize (IH c ltac:(intros; apply H; cbn; auto) HI L). unfold list_sum in *. cbn in *. lia.
Qed.

Definition rowsof (t : nat) (outs ids : list Z) (R : Z -> list Z) (k n : nat) : list (list Z) := map (fun j => map (ida_word t ids (map (fun c => word_at (R c) j) ids)) outs) (seq k n).
(** rounds before the last channel has finished *)
Lemma loop_open : forall fuel t outs ids R En k ready c0, (length ids <= t)%nat -> In c0 ids -> En c0 = false -> (ready <= count (legit R En k) ids)%nat ->
  (forall c, In c ids -> En c = false -> (4 * k <= length (R c))%nat) -> (list_sum (map (fun c => length (R c) - 4 * k)%nat ids) < fuel)%nat ->
  exists n ready', ida_loop fuel false t outs (view R En k ids) ready = Some (view R En (k + n) ids, ready', rowsof t outs ids R k n) /\ (ready' <= count (legit R En (k + n)) ids)%nat /\
    (forall c, In c ids -> En c = false -> (4 * (k + n) <= length (R c))%nat) /\ ((0 < n)%nat -> length ids = t) /\ ready' <> t /\ (ready = count (legit R En k) ids -> ready' = count (legit R En (k + n)) ids).
Proof.
  induction fuel as [|fuel IH]; intros t outs ids R En k ready c0 Lt H0 E0 HR HK HF; [lia|]. cbn [ida_loop]. destruct (Nat.eqb_spec ready t) as [E|E]; cbn [negb].
  - assert (CL : count (legit R En k) ids = length ids) by (pose proof (count_le _ (legit R En k) ids); lia). assert (LT : length ids = t) by (pose proof (count_le _ (legit R En k) ids); lia).
    pose proof (count_all _ _ _ CL) as AL. rewrite view_ids, view_words, view_skip, view_ready.
    assert (L0 : (4 * S k <= length (R c0))%nat). { specialize (AL c0 H0). unfold legit in AL. rewrite E0 in AL. cbn [orb] in AL. apply Nat.leb_le in AL. rewrite skipn_length in AL. lia. }
    destruct (IH t outs ids R En (S k) (count (legit R En (S k)) ids) c0) as (n & r & H1 & H2 & H3 & H4 & H5 & H6); auto.
    + intros c Hc Ec. specialize (AL c Hc). unfold legit in AL. rewrite Ec in AL. cbn [orb] in AL. apply Nat.leb_le in AL. rewrite skipn_length in AL. lia.
    + assert (list_sum (map (fun c => length (R c) - 4 * S k)%nat ids) < list_sum (map (fun c => length (R c) - 4 * k)%nat ids))%nat by (apply (list_sum_lt _ _ _ c0); auto; intros; lia). lia.
    + rewrite H1. exists (S n), r. replace (k + S n)%nat with (S k + n)%nat by lia. split; [reflexivity|]. split; [exact H2|]. split; [exact H3|]. split; [auto|]. split; [exact H5|]. intros _. apply H6. reflexivity.
  - exists 0%nat, ready. rewrite Nat.add_0_r. split; [reflexivity|]. split; [exact HR|]. split; [exact HK|]. split; [lia|]. split; [exact E|auto].
Qed.
(** the last rounds, when all channels have finished *)
Lemma loop_closed : forall fuel t outs ids R En k, (list_sum (map (fun c => length (R c) - 4 * k)%nat ids) < fuel)%nat ->
  exists n ready', ida_loop fuel true t outs (view R En k ids) (count (fun c => Nat.ltb 0 (length (skipn (4 * k) (R c)))) ids) = Some (view R En (k + n) ids, ready', rowsof t outs ids R k n) /\
    (forall c, In c ids -> (length (R c) <= 4 * (k + n))%nat) /\ (n = 0%nat \/ exists c, In c ids /\ (4 * (k + n - 1) < length (R c))%nat).
Proof.
  induction fuel as [|fuel IH]; intros t outs ids R En k HF; [lia|]. cbn [ida_loop]. destruct (Nat.ltb_spec 0 (count (fun c => Nat.ltb 0 (length (skipn (4 * k) (R c)))) ids)) as [L|L]; cbn [negb].
  - destruct (count_pos _ _ _ L) as (c0 & H0 & Q0). apply Nat.ltb_lt in Q0. rewrite skipn_length in Q0. rewrite view_ids, view_words, view_skip, view_any.
    destruct (IH t outs ids R En (S k)) as (n & r & H1 & H2 & H3).
    + assert (list_sum (map (fun c => length (R c) - 4 * S k)%nat ids) < list_sum (map (fun c => length (R c) - 4 * k)%nat ids))%nat by (apply (list_sum_lt _ _ _ c0); auto; intros; lia). lia.
    + rewrite H1. exists (S n), r. replace (k + S n)%nat with (S k + n)%nat by lia. split; [reflexivity|]. split; [exact H2|]. right. destruct H3 as [->|H3]; [exists c0; split; [auto|lia]|exact H3].
  - exists 0%nat, (count (fun c => Nat.ltb 0 (length (skipn (4 * k) (R c)))) ids). rewrite Nat.add_0_r. split; [reflexivity|]. split; [|auto].
    intros c Hc. assert (Z0 : count (fun c => Nat.ltb 0 (length (skipn (4 * k) (R c)))) ids = 0%nat) by lia. pose proof (count_zero _ _ _ Z0 c Hc) as Q. apply Nat.ltb_ge in Q. rewrite skipn_length in Q. lia.
Qed.

  Lemma stream_closed : forall calls open c, one_message_each open calls -> ~ In c open -> stream c calls = [].
  Proof.
    induction calls as [|[[d s] f] calls IH]; intros open c H N; [reflexivity|]. cbn [one_message_each stream] in *. destruct H as [H1 H2]. destruct (Z.eqb_spec c d) as [->|Nd]; [contradiction|]. cbn [app].
    apply (IH _ c H2). destruct f; [|auto]. intros Q. apply in_remove in Q. tauto.
  Qed.
  Lemma word_at_prefix : forall (r rest : list Z) j, (4 * S j <= length r)%nat -> word_at (r ++ rest) j = word_at r j.
  Proof.
    intros r rest j L. unfold word_at. f_equal. rewrite skipn_app. rewrite <- app_assoc, !firstn_app, !skipn_length. replace (4 - (length r - 4 * j))%nat with 0%nat by lia. reflexivity.
  Qed.
  Lemma words_for_spec : forall n m, words_for n = m <-> (n <= 4 * m /\ (m = 0 \/ 4 * (m - 1) < n))%nat.
  Proof. intros. unfold words_for. split. { intros <-. pose proof (Nat.div_mod_eq (n + 3) 4). pose proof (Nat.mod_upper_bound (n + 3) 4). lia. } intros [H1 H2]. symmetry. apply (Nat.div_unique _ _ _ (n + 3 - 4 * m)); lia. Qed.
  Lemma words_for_mono : forall a b, (a <= b)%nat -> (words_for a <= words_for b)%nat. Proof. intros. unfold words_for. apply Nat.div_le_mono; lia. Qed.
  Lemma words_needed_ge : forall S l c, In c l -> (words_for (length (S c)) <= words_needed S l)%nat.
  Proof. intros S l. unfold words_needed. induction l as [|a l IH]; intros c H; [destruct H|]. cbn [map fold_right]. destruct H as [->|H]; [lia|]. specialize (IH c H). lia. Qed.
  Lemma words_needed_le : forall S l m, (forall c, In c l -> (words_for (length (S c)) <= m)%nat) -> (words_needed S l <= m)%nat.
  Proof. intros S l m. unfold words_needed. induction l as [|a l IH]; intros H; cbn [map fold_right]; [lia|]. specialize (H a ltac:(cbn; auto)) as Ha. specialize (IH ltac:(intros; apply H; cbn; auto)). lia. Qed.
  Lemma words_needed_is : forall S l m, (forall c, In c l -> (length (S c) <= 4 * m)%nat) -> (m = 0%nat \/ exists c, In c l /\ (4 * (m - 1) < length (S c))%nat) -> words_needed S l = m.
  Proof.
    intros S l m H1 H2. assert (words_needed S l <= m)%nat.
    { apply words_needed_le. intros c Hc. specialize (H1 c Hc). apply (Nat.le_trans _ (words_for (4 * m))); [apply words_for_mono; auto|]. apply Nat.eq_le_incl. apply words_for_spec. lia. }
    destruct H2 as [->|(c & Hc & L)]; [lia|]. pose proof (words_needed_ge S l c Hc). assert (words_for (length (S c)) = m) by (apply words_for_spec; split; auto). lia.
  Qed.

(* ---------------------------------------------------------------- what happens to the rows *)
Section Round.
  Variables (cut : list Z -> list (list Z)) (kd : ida_kind) (t : nat) (outs : list Z) (prop : Z) (chan : list Z).
  Hypotheses (Ht : (1 <= t)%nat) (HND : NoDup chan) (HL : length chan = t).
  Definition snk (o : list (list Z) * list Z) (rows : list (list Z)) : list (list Z) * list Z * list ida_ev :=
    let oq1 := map (fun p => snd p ++ column (fst p) rows) (combine (seq 0 (length (fst o))) (fst o)) in
    if Nat.ltb 0 (length outs) && Nat.ltb 0 (length (hd [] oq1))
    then let r := ida_flush kd (Ida t [] 0 0 outs oq1 (snd o) prop) in ((ia_oq (fst r), ia_queue (fst r)), snd r) else ((oq1, snd o), []).
  Definition snk_end (o : list (list Z) * list Z) : list (list Z) * list Z * list ida_ev :=
    let r := ida_ends cut kd (Ida t [] 0 0 outs (fst o) (snd o) prop) in ((ia_oq (fst r), ia_queue (fst r)), snd r).
  Fixpoint snks (o : list (list Z) * list Z) (gs : list (list (list Z))) : list (list Z) * list Z * list ida_ev :=
    match gs with
    | [] => (o, [])
    | g :: r => let '(o1, e1) := snk o g in let '(o2, e2) := snks o1 r in (o2, e1 ++ e2)
    end.
  Lemma snks_app : forall a o b, snks o (a ++ b) = (fst (snks (fst (snks o a)) b), snd (snks o a) ++ snd (snks (fst (snks o a)) b)).
  Proof.
    induction a as [|g a IH]; intros o b; cbn [snks app]. { cbn [fst snd app]. destruct (snks o b); reflexivity. }
    destruct (snk o g) as [o1 e1]. rewrite IH. destruct (snks o1 a) as [o2 e2]. cbn [fst snd]. rewrite app_assoc. reflexivity.
  Qed.
  Lemma flush_frame : forall ins rd fn oq qu, ida_flush kd (Ida t ins rd fn outs oq qu prop) =
    (Ida t ins rd fn outs (ia_oq (fst (ida_flush kd (Ida t [] 0 0 outs oq qu prop)))) (ia_queue (fst (ida_flush kd (Ida t [] 0 0 outs oq qu prop)))) prop, snd (ida_flush kd (Ida t [] 0 0 outs oq qu prop))).
  Proof. intros. destruct kd; reflexivity. Qed.
  Lemma ends_frame : forall ins rd fn oq qu, ida_ends cut kd (Ida t ins rd fn outs oq qu prop) =
    (Ida t ins rd fn outs (ia_oq (fst (ida_ends cut kd (Ida t [] 0 0 outs oq qu prop)))) (ia_queue (fst (ida_ends cut kd (Ida t [] 0 0 outs oq qu prop)))) prop, snd (ida_ends cut kd (Ida t [] 0 0 outs oq qu prop))).
  Proof. intros. destruct kd as [|[|]|[|]]; reflexivity. Qed.
  Lemma flush_thr : forall a, ia_thr (fst (ida_flush kd a)) = ia_thr a. Proof. intros. destruct kd; reflexivity. Qed.

  Lemma process_open : forall R En k ids rd fn oq qu c0, (length ids <= t)%nat -> In c0 ids -> En c0 = false -> (rd <= count (legit R En k) ids)%nat -> fn <> t ->
    (forall c, In c ids -> En c = false -> (4 * k <= length (R c))%nat) ->
    exists n rd' oq' qu' e, ida_process cut kd (Ida t (view R En k ids) rd fn outs oq qu prop) = Some (Ida t (view R En (k + n) ids) rd' fn outs oq' qu' prop, e) /\
      snk (oq, qu) (rowsof t outs ids R k n) = ((oq', qu'), e) /\ (rd' <= count (legit R En (k + n)) ids)%nat /\ (forall c, In c ids -> En c = false -> (4 * (k + n) <= length (R c))%nat) /\
      ((0 < n)%nat -> length ids = t) /\ rd' <> t /\ (rd = count (legit R En k) ids -> rd' = count (legit R En (k + n)) ids).
  Proof.
    intros R En k ids rd fn oq qu c0 Lt H0 E0 HR Hfn HK. unfold ida_process. cbn [ia_fin ia_thr ia_outs ia_in ia_ready ia_oq ia_queue ia_prop].
    replace (Nat.eqb fn t) with false by (symmetry; apply Nat.eqb_neq; auto). rewrite view_total.
    destruct (loop_open (S (list_sum (map (fun c => length (R c) - 4 * k)%nat ids))) t outs ids R En k rd c0) as (n & r & H1 & H2 & H3 & H4 & H5 & H6); auto.
    rewrite H1.
    set (oq1 := map (fun p => snd p ++ column (fst p) (rowsof t outs ids R k n)) (combine (seq 0 (length oq)) oq)).
    destruct (Nat.ltb 0 (length outs) && Nat.ltb 0 (length (hd [] oq1))) eqn:B.
    - rewrite flush_frame. cbv beta iota zeta. eexists n, r, _, _, _. split; [reflexivity|]. split; [unfold snk; cbn [fst snd]; fold oq1; rewrite B; reflexivity|]. auto 6.
    - eexists n, r, _, _, _. split; [reflexivity|]. split; [unfold snk; cbn [fst snd]; fold oq1; rewrite B; reflexivity|]. auto 6.
  Qed.
  Lemma leftovers : forall R En k ids, (forall c, In c ids -> En c = true /\ (length (R c) <= 4 * k)%nat) -> concat (map (fun p => mq_all (fst p) (mq_next (snd p))) (view R En k ids)) = [].
  Proof.
    intros R En k ids H. unfold view. rewrite map_map. cbn [fst snd]. induction ids as [|c ids IH]; [reflexivity|]. cbn [map concat]. rewrite IH by (intros; apply H; cbn; auto).
    destruct (H c) as [H1 H2]; [cbn; auto|]. unfold qof. rewrite H1, skipn_all2 by lia. reflexivity.
  Qed.
  Lemma process_closed : forall R En k ids oq qu, length ids = t -> (forall c, In c ids -> En c = true) ->
    exists n o e1 e2 o2, ida_process cut kd (Ida t (view R En k ids) (count (fun p => Nat.ltb 0 (length (mq_front (snd p)))) (view R En k ids)) t outs oq qu prop) = Some (Ida t [] 0 0 outs (fst o2) (snd o2) prop, e1 ++ e2) /\
      snk (oq, qu) (rowsof t outs ids R k n) = (o, e1) /\ snk_end o = (o2, e2) /\
      (forall c, In c ids -> (length (R c) <= 4 * (k + n))%nat) /\ (n = 0%nat \/ exists c, In c ids /\ (4 * (k + n - 1) < length (R c))%nat).
  Proof.
    intros R En k ids oq qu Li HE. unfold ida_process. cbn [ia_fin ia_thr ia_outs ia_in ia_ready ia_oq ia_queue ia_prop]. rewrite Nat.eqb_refl, view_total.
    replace (count (fun p => Nat.ltb 0 (length (mq_front (snd p)))) (view R En k ids)) with (count (fun c => Nat.ltb 0 (length (skipn (4 * k) (R c)))) ids) by (rewrite <- (view_any R En); reflexivity).
    destruct (loop_closed (S (list_sum (map (fun c => length (R c) - 4 * k)%nat ids))) t outs ids R En k) as (n & r & H1 & H2 & H3); [lia|].
    rewrite H1.
    set (oq1 := map (fun p => snd p ++ column (fst p) (rowsof t outs ids R k n)) (combine (seq 0 (length oq)) oq)).
    destruct (Nat.ltb 0 (length outs) && Nat.ltb 0 (length (hd [] oq1))) eqn:B.
    - rewrite flush_frame. cbv beta iota zeta. rewrite ends_frame. cbn [ia_oq ia_queue]. rewrite leftovers by (intros c Hc; split; [apply HE; auto|apply H2; auto]). rewrite app_nil_r.
      eexists n, _, _, _, _. split; [|split; [unfold snk; cbn [fst snd]; fold oq1; rewrite B; reflexivity|split; [reflexivity|split; [exact H2|exact H3]]]]. unfold snk_end. cbn [fst snd]. reflexivity.
    - rewrite ends_frame. cbn [ia_oq ia_queue]. rewrite leftovers by (intros c Hc; split; [apply HE; auto|apply H2; auto]). rewrite app_nil_r.
      eexists n, _, _, _, _. split; [|split; [unfold snk; cbn [fst snd]; fold oq1; rewrite B; reflexivity|split; [reflexivity|split; [exact H2|exact H3]]]]. unfold snk_end. cbn [fst snd app]. reflexivity.
  Qed.

  Record Inv (R : Z -> list Z) (En : Z -> bool) (ids : list Z) (k : nat) (a : ida) : Prop := MkInv {
    i_thr : ia_thr a = t; i_outs : ia_outs a = outs; i_prop : ia_prop a = prop; i_in : ia_in a = view R En k ids; i_nd : NoDup ids; i_incl : incl ids chan;
    i_k : (length ids < t)%nat -> k = 0%nat; i_out : forall c, ~ In c ids -> R c = [] /\ En c = false;
    i_ready : (ia_ready a <= count (legit R En k) ids)%nat; i_rt : ia_ready a <> t; i_exact : (forall c, En c = false) -> ia_ready a = count (legit R En k) ids;
    i_fin : ia_fin a = count En ids; i_ft : (ia_fin a < t)%nat; i_len : forall c, In c ids -> En c = false -> (4 * k <= length (R c))%nat }.
  Lemma inv_start : forall oq qu, Inv (fun _ => []) (fun _ => false) [] 0 (Ida t [] 0 0 outs oq qu prop).
  Proof. intros. constructor; cbn; auto; try lia; try constructor. all: try (intros ? []). Qed.
  Lemma ids_le : forall ids, NoDup ids -> incl ids chan -> (length ids <= t)%nat. Proof. intros. rewrite <- HL. apply NoDup_incl_length; auto. Qed.
  Lemma view_ext : forall R R' En En' k ids, (forall c, In c ids -> qof R En k c = qof R' En' k c) -> view R En k ids = view R' En' k ids.
  Proof. intros. unfold view. apply map_ext_in. intros c Hc. rewrite H; auto. Qed.
  Lemma view_app : forall R En k a b, view R En k (a ++ b) = view R En k a ++ view R En k b. Proof. intros. unfold view. apply map_app. Qed.
  Lemma view_length : forall R En k ids, length (view R En k ids) = length ids. Proof. intros. unfold view. apply map_length. Qed.
  Lemma count_app : forall (A : Type) (f : A -> bool) l m, count f (l ++ m) = (count f l + count f m)%nat. Proof. intros. unfold count. rewrite filter_app, app_length. reflexivity. Qed.
  Lemma index_of_last : forall c l, ~ In c l -> index_of c (l ++ [c]) = Some (length l).
  Proof. induction l as [|a l IH]; intros H; cbn. { rewrite Z.eqb_refl. reflexivity. } destruct (Z.eqb_spec a c) as [->|N]; [cbn in H; tauto|]. rewrite IH by (cbn in H; tauto). reflexivity. Qed.
  (** InsertInputChannel always finds room for a channel of the round *)
  Lemma insert_inv : forall R En ids k a c, Inv R En ids k a -> In c chan -> En c = false ->
    exists ids' i, ida_insert a c = (Ida t (view R En k ids') (ia_ready a) (ia_fin a) outs (ia_oq a) (ia_queue a) prop, i) /\ index_of c ids' = Some i /\ (i < t)%nat /\
      Inv R En ids' k (Ida t (view R En k ids') (ia_ready a) (ia_fin a) outs (ia_oq a) (ia_queue a) prop).
  Proof.
    intros R En ids k a c HI Hc Ec. destruct a as [th ins rd fn ou oq qu pr]. destruct HI as [I1 I2 I3 I4 I5 I6 I7 I8 I9 I10 I11 I12 I13 I14]. cbn [ia_thr ia_in ia_ready ia_fin ia_outs ia_oq ia_queue ia_prop] in *. subst.
    unfold ida_insert. cbn [ia_in ia_thr ia_in ia_ready ia_fin ia_outs ia_oq ia_queue ia_prop]. rewrite view_ids. pose proof (ids_le ids I5 I6) as Le. destruct (index_of c ids) as [i|] eqn:Ei.
    - destruct (index_of_some _ _ _ Ei). exists ids, i. split; [reflexivity|]. split; [exact Ei|]. split; [lia|]. constructor; auto.
    - pose proof (index_of_none _ _ Ei) as Nc. assert (NDc : NoDup (c :: ids)) by (constructor; auto). assert (Inc : incl (c :: ids) chan) by (intros d [->|Hd]; auto). pose proof (ids_le _ NDc Inc) as Le2. cbn [length] in Le2.
      rewrite view_length. destruct (Nat.eqb_spec (length ids) t); [lia|]. assert (K0 : k = 0%nat) by (apply I7; lia). subst k. destruct (I8 c Nc) as [Rc _].
      assert (V : view R En 0 (ids ++ [c]) = view R En 0 ids ++ [(c, mq_new)]) by (rewrite view_app; unfold view at 2, qof; cbn [map]; rewrite Rc, Ec; reflexivity).
      exists (ids ++ [c]), (length ids). rewrite V. split; [reflexivity|]. split; [apply index_of_last; auto|]. split; [lia|].
      assert (CL : count (legit R En 0) (ids ++ [c]) = count (legit R En 0) ids). { rewrite count_app. unfold count at 2. cbn [filter]. unfold legit at 2. rewrite Ec, Rc. cbn. lia. }
      constructor; cbn [ia_thr ia_in ia_ready ia_fin ia_outs ia_oq ia_queue ia_prop]; auto.
      + apply (Permutation_NoDup (l := c :: ids)); auto. apply Permutation_cons_append.
      + intros d Hd. apply in_app_or in Hd. destruct Hd as [Hd|[<-|[]]]; auto.
      + intros d Hd. apply I8. intros Q. apply Hd. apply in_or_app. auto.
      + lia.
      + intros Q. rewrite CL. auto.
      + rewrite count_app. unfold count. cbn [filter]. rewrite Ec. cbn. lia.
      + intros d _ _. lia.
  Qed.
  Lemma put_view : forall R En k ids c i s, NoDup ids -> index_of c ids = Some i -> En c = false -> (4 * k <= length (R c))%nat ->
    map (fun p => if Nat.eqb (fst p) i then (fst (snd p), mq_put (snd (snd p)) s) else snd p) (combine (seq 0 (length (view R En k ids))) (view R En k ids)) = view (updf R c (R c ++ s)) En k ids.
  Proof.
    intros R En k ids c i s ND Ei Ec L. pose proof (set_nth (fun q => mq_put q s) ids (qof R En k) c 0 i ND Ei) as H. cbn [Nat.add] in H. unfold view at 1 2. rewrite H. apply map_ext. intros d. f_equal.
    unfold qof. destruct (Z.eqb_spec d c) as [->|N]; [|rewrite updf_other by auto; reflexivity]. rewrite updf_same, Ec. cbn [mq_put]. rewrite skipn_app. replace (4 * k - length (R c))%nat with 0%nat by lia. reflexivity.
  Qed.
  Lemma end_view : forall R En k ids c i, NoDup ids -> index_of c ids = Some i -> En c = false ->
    map (fun p => if Nat.eqb (fst p) i then (fst (snd p), mq_end (snd (snd p))) else snd p) (combine (seq 0 (length (view R En k ids))) (view R En k ids)) = view R (updf En c true) k ids.
  Proof.
    intros R En k ids c i ND Ei Ec. pose proof (set_nth mq_end ids (qof R En k) c 0 i ND Ei) as H. cbn [Nat.add] in H. unfold view at 1 2. rewrite H. apply map_ext. intros d. f_equal.
    unfold qof. destruct (Z.eqb_spec d c) as [->|N]; [|rewrite updf_other by auto; reflexivity]. rewrite updf_same, Ec. reflexivity.
  Qed.
  Lemma queue_view : forall R En k ids c i rd fn oq qu, index_of c ids = Some i -> ida_queue (Ida t (view R En k ids) rd fn outs oq qu prop) i = qof R En k c.
  Proof.
    intros. destruct (index_of_some _ _ _ H) as [H1 H2]. unfold ida_queue. cbn [ia_in]. unfold view. rewrite (nth_indep _ (0%Z, mq_new) ((fun c => (c, qof R En k c)) 0%Z)) by (rewrite map_length; lia).
    rewrite (map_nth (fun c => (c, qof R En k c))), H2. reflexivity.
  Qed.
  Definition st_of (a : ida) : list (list Z) * list Z := (ia_oq a, ia_queue a).

  Lemma step_open : forall R En ids k a c s, Inv R En ids k a -> In c chan -> En c = false ->
    exists ids' n a' e gs i, ida_data cut kd a c s false = Some (a', e) /\ Inv (updf R c (R c ++ s)) En ids' (k + n) a' /\
      snks (st_of a) gs = (st_of a', e) /\ concat gs = rowsof t outs ids' (updf R c (R c ++ s)) k n /\ snd (ida_insert a c) = i /\ index_of c ids' = Some i /\ (i < t)%nat.
  Proof.
    intros R En ids k a c s HI Hc Ec. destruct (insert_inv _ _ _ _ _ c HI Hc Ec) as (ids' & i & Hins & Hi & Hit & HI'). unfold ida_data. rewrite Hins. cbn [snd].
    destruct HI' as [I1 I2 I3 I4 I5 I6 I7 I8 I9 I10 I11 I12 I13 I14]. cbn [ia_thr ia_in ia_ready ia_fin ia_outs ia_oq ia_queue ia_prop] in *. clear I1 I2 I3 I4.
    replace (Nat.ltb i t) with true by (symmetry; apply Nat.ltb_lt; auto). rewrite (queue_view R En k ids' c i _ _ _ _ Hi). unfold ida_set_queue. cbn [ia_thr ia_in ia_ready ia_fin ia_outs ia_oq ia_queue ia_prop].
    assert (Hci : In c ids') by (destruct (index_of_some _ _ _ Hi) as [Q1 Q2]; rewrite <- Q2; apply nth_In; auto). pose proof (I14 c Hci Ec) as Lk. rewrite (put_view R En k ids' c i s) by auto.
    set (R1 := updf R c (R c ++ s)). assert (R1c : R1 c = R c ++ s) by apply updf_same. assert (R1o : forall d, d <> c -> R1 d = R d) by (intros; apply updf_other; auto).
    assert (Lt : (length ids' <= t)%nat) by (apply ids_le; auto).
    assert (Rlen : forall d, (length (R d) <= length (R1 d))%nat) by (intros d; destruct (Z.eq_dec d c) as [->|N]; [rewrite R1c, app_length; lia|rewrite R1o by auto; lia]).
    assert (J8 : forall d, ~ In d ids' -> R1 d = [] /\ En d = false) by (intros d Hd; rewrite R1o by (intros ->; auto); auto).
    assert (J14 : forall d, In d ids' -> En d = false -> (4 * k <= length (R1 d))%nat) by (intros d Hd Ed; specialize (I14 d Hd Ed); specialize (Rlen d); lia).
    assert (Lmono : forall d, legit R En k d = true -> legit R1 En k d = true).
    { intros d. unfold legit. destruct (En d); cbn [orb]; auto. intros Q. apply Nat.leb_le in Q. apply Nat.leb_le. rewrite skipn_length in *. specialize (Rlen d). lia. }
    assert (Lother : forall d, d <> c -> legit R En k d = legit R1 En k d) by (intros d N; unfold legit; rewrite R1o by auto; reflexivity).
    assert (Lc1 : legit R1 En k c = Nat.leb 4 (length (R c) - 4 * k + length s)) by (unfold legit; rewrite Ec, R1c; cbn [orb]; rewrite skipn_length, app_length; f_equal; lia).
    assert (Lc0 : legit R En k c = Nat.leb 4 (length (R c) - 4 * k)) by (unfold legit; rewrite Ec; cbn [orb]; rewrite skipn_length; f_equal; lia).
    unfold qof. cbn [mq_front hd]. rewrite skipn_length.
    destruct (Nat.ltb (length (R c) - 4 * k) 4 && Nat.leb 4 (length (R c) - 4 * k + length s)) eqn:B.
    - apply andb_prop in B. destruct B as [B1 B2]. apply Nat.ltb_lt in B1. rewrite B2 in Lc1. assert (F0 : legit R En k c = false) by (rewrite Lc0; apply Nat.leb_gt; auto).
      pose proof (count_upd _ _ ids' c I5 Hci F0 Lc1 Lother) as CU. unfold ida_set_ready. cbn [ia_thr ia_in ia_ready ia_fin ia_outs ia_oq ia_queue ia_prop].
      destruct (Nat.eqb_spec (S (ia_ready a)) t) as [Et|Et].
      + destruct (process_open R1 En k ids' (S (ia_ready a)) (ia_fin a) (ia_oq a) (ia_queue a) c) as (n & rd & oq' & qu' & e & P1 & P2 & P3 & P4 & P5 & P6 & P7); auto; try lia.
        rewrite P1. exists ids', n. eexists _, e, [rowsof t outs ids' R1 k n], i. split; [reflexivity|]. split; [|split; [cbn [snks]; unfold st_of at 1; rewrite P2; cbn [st_of ia_oq ia_queue]; rewrite app_nil_r; reflexivity|split; [cbn; apply app_nil_r|auto]]].
        constructor; cbn [ia_thr ia_in ia_ready ia_fin ia_outs ia_oq ia_queue ia_prop]; auto.
        * intros L. rewrite (I7 L). destruct n as [|n]; [reflexivity|]. rewrite (P5 ltac:(lia)) in L. lia.
        * intros Q. apply P7. rewrite CU. f_equal. auto.
      + exists ids', 0%nat. eexists _, [], [], i. split; [reflexivity|]. rewrite Nat.add_0_r. split; [|split; [reflexivity|split; [reflexivity|auto]]].
        constructor; cbn [ia_thr ia_in ia_ready ia_fin ia_outs ia_oq ia_queue ia_prop]; auto; [lia|]. intros Q. rewrite CU. f_equal. auto.
    - exists ids', 0%nat. eexists _, [], [], i. split; [reflexivity|]. rewrite Nat.add_0_r. split; [|split; [reflexivity|split; [reflexivity|auto]]].
      assert (CE : count (legit R1 En k) ids' = count (legit R En k) ids').
      { apply count_ext. intros d Hd. destruct (Z.eq_dec d c) as [->|N]; [|symmetry; auto]. rewrite Lc1, Lc0. apply andb_false_iff in B. destruct B as [B|B].
        - apply Nat.ltb_ge in B. transitivity true; [apply Nat.leb_le; lia|symmetry; apply Nat.leb_le; lia].
        - apply Nat.leb_gt in B. transitivity false; [apply Nat.leb_gt; lia|symmetry; apply Nat.leb_gt; lia]. }
      constructor; cbn [ia_thr ia_in ia_ready ia_fin ia_outs ia_oq ia_queue ia_prop]; auto; [lia|]. intros Q. rewrite CE. auto.
  Qed.
  Lemma data_fin : forall a c s, ida_data cut kd a c s true =
    match ida_data cut kd a c s false with
    | None => None
    | Some (a3, e3) =>
        let i := snd (ida_insert a c) in
        if Nat.ltb i (ia_thr (fst (ida_insert a c))) then
          let a4 := ida_set_queue a3 i mq_end in
          if Nat.eqb (mq_messages (ida_queue a4 i)) 1 then
            let a5 := ida_set_fin a4 (S (ia_fin a4)) in
            if Nat.eqb (ia_fin a5) (ia_thr a5) then
              let a6 := ida_set_ready a5 (count (fun p => Nat.ltb 0 (length (mq_front (snd p)))) (ia_in a5)) in
              match ida_process cut kd a6 with None => None | Some (a7, e7) => Some (a7, e3 ++ e7) end
            else Some (a5, e3)
          else Some (a4, e3)
        else Some (a3, e3)
    end.
  Proof.
    intros. unfold ida_data. destruct (ida_insert a c) as [a0 i]. cbn [fst snd]. destruct (Nat.ltb i (ia_thr a0)); [|reflexivity].
    match goal with |- context [match ?r with Some _ => _ | None => None end] => destruct r as [[a3 e3]|]; reflexivity end.
  Qed.
  Lemma step_fin : forall R En ids k a c s, Inv R En ids k a -> In c chan -> En c = false ->
    let R1 := updf R c (R c ++ s) in let En1 := updf En c true in
    exists ids' n a' e gs, ida_data cut kd a c s true = Some (a', e) /\
      ((Inv R1 En1 ids' (k + n) a' /\ snks (st_of a) gs = (st_of a', e) /\ concat gs = rowsof t outs ids' R1 k n) \/
       (length ids' = t /\ NoDup ids' /\ incl ids' chan /\ (forall d, In d ids' -> En1 d = true) /\ a' = Ida t [] 0 0 outs (ia_oq a') (ia_queue a') prop /\
        (exists o e1 e2, snks (st_of a) gs = (o, e1) /\ snk_end o = (st_of a', e2) /\ e = e1 ++ e2) /\ concat gs = rowsof t outs ids' R1 k n /\
        (forall d, In d ids' -> (length (R1 d) <= 4 * (k + n))%nat) /\ ((k + n)%nat = 0%nat \/ exists d, In d ids' /\ (4 * (k + n - 1) < length (R1 d))%nat))).
  Proof.
    intros R En ids k a c s HI Hc Ec R1 En1. destruct (step_open R En ids k a c s HI Hc Ec) as (ids' & n & a3 & e3 & gs & i & D & HI3 & SK & CG & Hii & Hi & Hit). rewrite data_fin, D.
    destruct (insert_inv _ _ _ _ _ c HI Hc Ec) as (ids0 & i0 & Hins & _ & _ & _). rewrite Hins. cbn [fst snd ia_thr]. rewrite Hins in Hii. cbn [snd] in Hii. subst i0.
    replace (Nat.ltb i t) with true by (symmetry; apply Nat.ltb_lt; auto). fold R1 in HI3. destruct a3 as [th ins rd fn ou oq qu pr].
    destruct HI3 as [I1 I2 I3 I4 I5 I6 I7 I8 I9 I10 I11 I12 I13 I14]. cbn [ia_thr ia_in ia_ready ia_fin ia_outs ia_oq ia_queue ia_prop] in *. subst th ou pr ins.
    assert (Hci : In c ids') by (destruct (index_of_some _ _ _ Hi) as [Q1 Q2]; rewrite <- Q2; apply nth_In; auto).
    unfold ida_set_queue. cbn [ia_thr ia_in ia_ready ia_fin ia_outs ia_oq ia_queue ia_prop]. rewrite (end_view R1 En (k + n) ids' c i) by auto. fold En1. rewrite (queue_view R1 En1 (k + n) ids' c i _ _ _ _ Hi).
    assert (E1c : En1 c = true) by apply updf_same. assert (E1o : forall d, d <> c -> En d = En1 d) by (intros; unfold En1; rewrite updf_other; auto).
    assert (MQ : mq_messages (qof R1 En1 (k + n) c) = 1%nat) by (unfold mq_messages, qof; rewrite E1c; reflexivity). rewrite MQ. cbn [Nat.eqb]. unfold ida_set_fin. cbn [ia_thr ia_in ia_ready ia_fin ia_outs ia_oq ia_queue ia_prop].
    pose proof (count_upd _ _ ids' c I5 Hci Ec E1c E1o) as CU. pose proof (ids_le _ I5 I6) as Lt.
    destruct (Nat.eqb_spec (S fn) t) as [Et|Et].
    - unfold ida_set_ready. cbn [ia_thr ia_in ia_ready ia_fin ia_outs ia_oq ia_queue ia_prop]. rewrite Et. assert (CL : count En1 ids' = length ids') by (pose proof (count_le _ En1 ids'); lia). assert (Li : length ids' = t) by (pose proof (count_le _ En1 ids'); lia).
      destruct (process_closed R1 En1 (k + n) ids' oq qu Li (count_all _ _ _ CL)) as (m & o & e1 & e2 & o2 & P1 & P2 & P3 & P4 & P5). rewrite P1.
      exists ids', (n + m)%nat. eexists _, _, (gs ++ [rowsof t outs ids' R1 (k + n) m]). split; [reflexivity|]. right. cbn [ia_oq ia_queue]. rewrite Nat.add_assoc.
      split; [exact Li|]. split; [exact I5|]. split; [exact I6|]. split; [apply (count_all _ _ _ CL)|]. split; [reflexivity|]. split; [|split; [|split; [exact P4|]]].
      + exists o, (e3 ++ e1), e2. rewrite snks_app, SK. cbn [fst snd snks]. unfold st_of at 1 2. cbn [ia_oq ia_queue]. rewrite P2. cbn [fst snd]. rewrite app_nil_r. split; [reflexivity|]. split; [unfold st_of; cbn [ia_oq ia_queue]; rewrite P3; destruct o2; reflexivity|]. apply app_assoc.
      + rewrite concat_app, CG. cbn [concat]. rewrite app_nil_r. unfold rowsof. rewrite <- map_app, <- seq_app. reflexivity.
      + destruct P5 as [->|P5]; [|right; exact P5]. rewrite Nat.add_0_r. destruct (Nat.eq_dec (k + n) 0); [left; auto|]. right. exists c. split; [auto|]. pose proof (I14 c Hci Ec). lia.
    - exists ids', n. eexists _, _, gs. split; [reflexivity|]. left. split; [|split; [exact SK|exact CG]].
      assert (Lmono : forall d, legit R1 En (k + n) d = true -> legit R1 En1 (k + n) d = true) by (intros d; unfold legit, En1, updf; destruct (Z.eqb d c); [reflexivity|auto]).
      constructor; cbn [ia_thr ia_in ia_ready ia_fin ia_outs ia_oq ia_queue ia_prop]; auto.
      + intros d Hd. destruct (I8 d Hd) as [Q1 Q2]. split; [exact Q1|]. rewrite <- E1o by (intros ->; auto). exact Q2.
      + pose proof (count_mono _ _ _ ids' (fun d _ => Lmono d)). lia.
      + intros Q. specialize (Q c). congruence.
      + lia.
      + lia.
      + intros d Hd Ed. apply I14; auto. destruct (Z.eq_dec d c) as [->|N]; [congruence|]. rewrite E1o; auto.
  Qed.

  Definition wrows (W : nat -> Z -> Z) (k n : nat) : list (list Z) := map (fun j => map (W j) outs) (seq k n).
  Variables (Sf : Z -> list Z) (W : nat -> Z -> Z).
  Hypothesis HW : forall ids', NoDup ids' -> incl ids' chan -> length ids' = t -> forall j o, In o outs -> ida_word t ids' (map (fun c => word_at (Sf c) j) ids') o = W j o.
  Lemma rows_are : forall ids R k n, (n = 0%nat \/ (NoDup ids /\ incl ids chan /\ length ids = t)) -> (forall j c, In c ids -> (k <= j < k + n)%nat -> word_at (R c) j = word_at (Sf c) j) -> rowsof t outs ids R k n = wrows W k n.
  Proof.
    intros ids R k n [->|(H1 & H2 & H3)] H; [reflexivity|]. unfold rowsof, wrows. apply map_ext_in. intros j Hj. apply in_seq in Hj. apply map_ext_in. intros o Ho. rewrite <- (HW ids H1 H2 H3 j o Ho). f_equal. apply map_ext_in. intros c Hc. apply H; auto.
  Qed.
  Lemma updf_stream : forall (R : Z -> list Z) c s r, (forall d, Sf d = R d ++ stream d ((c, s, true) :: r)) -> forall d, Sf d = updf R c (R c ++ s) d ++ stream d r.
  Proof. intros R c s r H d. rewrite H. cbn [stream]. unfold updf. destruct (Z.eqb_spec d c) as [->|N]; [rewrite <- app_assoc; reflexivity|reflexivity]. Qed.
  Lemma wrows_split : forall k n m, wrows W k n ++ wrows W (k + n) m = wrows W k (n + m). Proof. intros. unfold wrows. rewrite <- map_app, <- seq_app. reflexivity. Qed.
  Lemma open_rows : forall R En ids k n a calls open, Inv R En ids (k + n) a -> (forall c, In c open <-> In c chan /\ En c = false) -> one_message_each open calls -> (forall c, Sf c = R c ++ stream c calls) -> rowsof t outs ids R k n = wrows W k n.
  Proof.
    intros R En ids k n a calls open HI HO HM HS. destruct HI as [I1 I2 I3 I4 I5 I6 I7 I8 I9 I10 I11 I12 I13 I14]. pose proof (ids_le _ I5 I6). apply rows_are.
    - destruct n as [|n]; [auto|]. right. split; [auto|]. split; [auto|]. destruct (Nat.eq_dec (length ids) t); [auto|]. specialize (I7 ltac:(lia)). lia.
    - intros j c Hc Hj. rewrite HS. destruct (En c) eqn:Ec.
      + rewrite (stream_closed calls open c HM), app_nil_r; [reflexivity|]. rewrite HO. intros [_ Q]. congruence.
      + rewrite word_at_prefix; [reflexivity|]. specialize (I14 c Hc Ec). lia.
  Qed.
  Theorem round_run : forall calls open R En ids k a, Inv R En ids k a -> (forall c, In c open <-> In c chan /\ En c = false) -> one_message_each open calls -> (forall c, Sf c = R c ++ stream c calls) ->
    exists n gs o e1 e2 o', ida_run cut kd a calls = Some (Ida t [] 0 0 outs (fst o') (snd o') prop, e1 ++ e2) /\ snks (st_of a) gs = (o, e1) /\ snk_end o = (o', e2) /\ concat gs = wrows W k n /\ (k + n)%nat = words_needed Sf chan.
  Proof.
    induction calls as [|[[c s] fin] calls IH]; intros open R En ids k a HI HO HM HS.
    - cbn in HM. exfalso. subst open. destruct HI as [I1 I2 I3 I4 I5 I6 I7 I8 I9 I10 I11 I12 I13 I14].
      assert (AL : forall c, In c chan -> In c ids). { intros c Hc. destruct (in_dec Z.eq_dec c ids); [auto|]. destruct (I8 c n) as [_ Q]. destruct (proj2 (HO c) (conj Hc Q)). }
      assert (L : (t <= length ids)%nat) by (rewrite <- HL; apply NoDup_incl_length; auto).
      assert (C : count En ids = length ids). { apply count_true. intros c Hc. destruct (En c) eqn:E; [reflexivity|]. destruct (proj2 (HO c) (conj (I6 c Hc) E)). }
      lia.
    - cbn [one_message_each] in HM. destruct HM as [Hc HM]. pose proof Hc as Hc'. apply HO in Hc'. destruct Hc' as [Hcc Ec]. pose proof (updf_stream R c s calls ltac:(intros d; apply HS)) as HS1. cbn [ida_run]. destruct fin.
      + destruct (step_fin R En ids k a c s HI Hcc Ec) as (ids' & n & a' & e & gs & D & [(J1 & J2 & J3)|(J1 & J2 & J3 & J4 & J5 & (o & e1 & e2 & J6 & J7 & J8) & J9 & J10 & J11)]); rewrite D.
        * assert (HO1 : forall d, In d (remove Z.eq_dec c open) <-> In d chan /\ updf En c true d = false).
          { intros d. unfold updf. split.
            - intros Q. apply in_remove in Q. destruct Q as [Q1 Q2]. apply HO in Q1. destruct (Z.eqb_spec d c); [contradiction|auto].
            - intros [Q1 Q2]. destruct (Z.eqb_spec d c) as [->|N]; [discriminate|]. apply in_in_remove; [auto|]. apply HO. auto. }
          destruct (IH _ _ _ _ _ _ J1 HO1 HM HS1) as (m & gs2 & o & e1 & e2 & o' & K1 & K2 & K3 & K4 & K5). rewrite K1.
          exists (n + m)%nat, (gs ++ gs2), o, (e ++ e1), e2, o'. split; [rewrite app_assoc; reflexivity|]. split; [rewrite snks_app, J2; cbn [fst snd]; rewrite K2; reflexivity|]. split; [exact K3|]. split; [|lia].
          rewrite concat_app, J3, K4, (open_rows _ _ _ _ _ _ _ _ J1 HO1 HM HS1). apply wrows_split.
        * assert (AL : incl chan ids') by (apply NoDup_length_incl; [exact J2|lia|exact J3]). assert (R0 : calls = []).
          { destruct calls as [|[[d s2] f2] calls]; [reflexivity|]. exfalso. cbn [one_message_each] in HM. destruct HM as [HM _]. apply in_remove in HM. destruct HM as [Q1 Q2]. apply HO in Q1. destruct Q1 as [Q1 Q3].
            specialize (J4 d (AL d Q1)). rewrite updf_other in J4 by auto. congruence. }
          subst calls. cbn [ida_run]. rewrite J5. exists n, gs, o, e1, e2, (st_of a'). rewrite app_nil_r, J8. cbn [st_of fst snd ia_oq ia_queue]. split; [reflexivity|]. split; [exact J6|]. split; [exact J7|].
          assert (SR : forall d, Sf d = updf R c (R c ++ s) d) by (intros d; rewrite HS1; cbn [stream]; apply app_nil_r).
          split; [rewrite J9; apply rows_are; [auto|intros; rewrite SR; reflexivity]|].
          symmetry. apply words_needed_is. { intros d Hd. rewrite SR. apply J10. apply AL. auto. } destruct J11 as [J11|(d & Q1 & Q2)]; [left; exact J11|]. right. exists d. rewrite SR. auto.
      + destruct (step_open R En ids k a c s HI Hcc Ec) as (ids' & n & a' & e & gs & i & D & J1 & J2 & J3 & _). rewrite D.
        destruct (IH _ _ _ _ _ _ J1 HO HM HS1) as (m & gs2 & o & e1 & e2 & o' & K1 & K2 & K3 & K4 & K5). rewrite K1.
        exists (n + m)%nat, (gs ++ gs2), o, (e ++ e1), e2, o'. split; [rewrite app_assoc; reflexivity|]. split; [rewrite snks_app, J2; cbn [fst snd]; rewrite K2; reflexivity|]. split; [exact K3|]. split; [|lia].
        rewrite concat_app, J3, K4, (open_rows _ _ _ _ _ _ _ _ J1 HO HM HS1). apply wrows_split.
  Qed.
End Round.
