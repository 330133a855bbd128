(** Threefish: the statements of the decryption undo those of the encryption, checked as lists of
    statements: each statement of the second list cancels one of the first that can be moved next to it. *)
From Coq Require Import ZArith List Bool Arith Lia.
From Verif Require Import Base CipherModel CipherSpec CipherProofs CipherBteaProofs.
Import ListNotations.
Local Open Scope Z_scope.

Section Tf.
  Variables rk tw : list Z.
  Variable n : nat.
  Local Notation W := (word 64).
  Definition wok (g : list Z) : Prop := Forall W g /\ length g = n.

  Lemma a64_w : forall x y, W (wadd 64 x y). Proof. apply wadd_word. lia. Qed.
  Lemma s64_w : forall x y, W (wsub 64 x y). Proof. apply wsub_word. lia. Qed.
  Lemma x64_w : forall x y, W x -> W y -> W (Z.lxor x y). Proof. apply lxor_word. lia. Qed.
  Lemma rl64_w : forall x y, W x -> W (rotl 64 x y). Proof. apply rotl_word; [lia|apply mask64]. Qed.
  Lemma rr64_w : forall x y, W x -> W (rotr 64 x y). Proof. apply rotr_word; [lia|apply mask64]. Qed.
  Lemma n64_w : forall i g, Forall W g -> W (nth i g 0). Proof. intros. apply nth_word0; auto. lia. Qed.
  Local Hint Resolve a64_w s64_w x64_w rl64_w rr64_w n64_w : core.

  (** One-summand form: [Gi += t1 + t2] as [Gi += t1; Gi += t2]; a constant 0 is dropped. *)
  Definition nonzero (t : tf_term) : bool := match t with TC c => negb (c =? 0) | _ => true end.
  Definition split1 (o : tf_op) : list tf_op :=
    match o with
    | AddK i t => map (fun x => AddK i [x]) (filter nonzero t)
    | SubK i t => map (fun x => SubK i [x]) (filter nonzero t)
    | _ => [o]
    end.
  Definition wf (o : tf_op) : bool :=
    match o with
    | Mix _ i j | Unmix _ i j => (i <? n)%nat && (j <? n)%nat && negb (i =? j)%nat
    | AddK i t | SubK i t => (i <? n)%nat && match t with [] => false | _ => true end
    end.

  Lemma up_W : forall p x g, W x -> Forall W g -> Forall W (upd p x g).
  Proof. intros. apply upd_Forall; auto. Qed.
  Local Hint Resolve up_W : core.
  Lemma step_ok : forall g o, wok g -> wok (tf_step rk tw g o).
  Proof.
    intros g o [H1 H2]. split.
    - destruct o; cbn [tf_step]; auto 10.
    - destruct o; cbn [tf_step]; rewrite ?upd_length; auto.
  Qed.
  Lemma run_ok : forall ops g, wok g -> wok (tf_run rk tw ops g).
  Proof. unfold tf_run. induction ops; intros; cbn [fold_left]; auto using step_ok. Qed.
  Lemma run_app : forall a b g, tf_run rk tw (a ++ b) g = tf_run rk tw b (tf_run rk tw a g).
  Proof. intros. unfold tf_run. apply fold_left_app. Qed.

  Lemma sum1 : forall x, tf_sum rk tw [x] = tf_val rk tw x mod 2 ^ 64.
  Proof. intros. unfold tf_sum, wadd. cbn [fold_right]. rewrite Z.add_0_r. reflexivity. Qed.
  Lemma sum_cons : forall x t, tf_sum rk tw (x :: t) = wadd 64 (tf_val rk tw x) (tf_sum rk tw t).
  Proof. reflexivity. Qed.
  Lemma add_mod : forall x y, wadd 64 x (y mod 2 ^ 64) = wadd 64 x y.
  Proof. intros. unfold wadd. apply Zplus_mod_idemp_r. Qed.
  Lemma sub_mod : forall x y, wsub 64 x (y mod 2 ^ 64) = wsub 64 x y.
  Proof. intros. unfold wsub. apply Zminus_mod_idemp_r. Qed.
  Lemma split1_add : forall i t g, wok g -> (i < n)%nat ->
    tf_run rk tw (map (fun x => AddK i [x]) t) g = upd i (wadd 64 (nth i g 0) (tf_sum rk tw t)) g.
  Proof.
    unfold tf_run. induction t as [|x t IH]; intros g Hg Hi; cbn [map fold_left].
    - unfold wadd, tf_sum. cbn [fold_right]. rewrite Z.add_0_r.
      rewrite Z.mod_small by (apply n64_w; apply Hg). symmetry. apply upd_self.
    - rewrite IH; auto using step_ok. cbn [tf_step]. rewrite upd_nth_eq by (destruct Hg; lia). rewrite upd_twice.
      f_equal. rewrite sum1, add_mod, sum_cons. generalize (tf_sum rk tw t). intros u. unfold wadd.
      rewrite Zplus_mod_idemp_l, Zplus_mod_idemp_r. f_equal. lia.
  Qed.
  Lemma split1_sub : forall i t g, wok g -> (i < n)%nat ->
    tf_run rk tw (map (fun x => SubK i [x]) t) g = upd i (wsub 64 (nth i g 0) (tf_sum rk tw t)) g.
  Proof.
    unfold tf_run. induction t as [|x t IH]; intros g Hg Hi; cbn [map fold_left].
    - unfold wsub, tf_sum. cbn [fold_right]. rewrite Z.sub_0_r.
      rewrite Z.mod_small by (apply n64_w; apply Hg). symmetry. apply upd_self.
    - rewrite IH; auto using step_ok. cbn [tf_step]. rewrite upd_nth_eq by (destruct Hg; lia). rewrite upd_twice.
      f_equal. rewrite sum1, sub_mod, sum_cons. generalize (tf_sum rk tw t). intros u. unfold wsub, wadd.
      rewrite Zminus_mod_idemp_l, Zminus_mod_idemp_r. f_equal. lia.
  Qed.
  Lemma sum_filter : forall t, tf_sum rk tw (filter nonzero t) = tf_sum rk tw t.
  Proof.
    induction t as [|x t IH]; cbn [filter]; auto. destruct (nonzero x) eqn:N.
    - rewrite !sum_cons, IH. reflexivity.
    - rewrite IH, sum_cons. destruct x; cbn [nonzero] in N; try discriminate.
      apply negb_false_iff, Z.eqb_eq in N. subst c. cbn [tf_val]. unfold wadd. rewrite Z.add_0_l.
      symmetry. apply Z.mod_small. destruct t as [|y t]; [unfold tf_sum; cbn [fold_right]; lia|].
      rewrite sum_cons. apply a64_w.
  Qed.
  Lemma run_split : forall ops g, wok g -> forallb wf ops = true ->
    tf_run rk tw (flat_map split1 ops) g = tf_run rk tw ops g.
  Proof.
    induction ops as [|o ops IH]; intros g Hg F; cbn [flat_map]; auto.
    cbn [forallb] in F. apply andb_prop in F. destruct F as [F1 F2]. rewrite run_app.
    assert (E : tf_run rk tw (split1 o) g = tf_step rk tw g o).
    { destruct o; cbn [split1]; try reflexivity; cbn [wf] in F1; apply andb_prop in F1; destruct F1 as [F1 _];
        apply Nat.ltb_lt in F1; [rewrite split1_add|rewrite split1_sub]; auto; rewrite sum_filter; reflexivity. }
    rewrite E, IH; auto using step_ok.
  Qed.

  (** Which statements may be exchanged, and which cancel. *)
  Definition places (o : tf_op) : list nat :=
    match o with Mix _ i j | Unmix _ i j => [i; j] | AddK i _ | SubK i _ => [i] end.
  Definition apart (a b : tf_op) : bool :=
    forallb (fun i => forallb (fun j => negb (i =? j)%nat) (places b)) (places a).
  Definition additive (o : tf_op) : bool := match o with AddK _ _ | SubK _ _ => true | _ => false end.
  Definition commute (a b : tf_op) : bool := apart a b || (additive a && additive b).
  Definition term_eqb (s t : tf_term) : bool :=
    match s, t with
    | TK i, TK j | TT i, TT j => (i =? j)%nat
    | TC a, TC b => a =? b
    | _, _ => false
    end.
  Definition terms_eqb (s t : list tf_term) : bool :=
    match s, t with [x], [y] => term_eqb x y | _, _ => false end.
  (** [e] then [d] changes nothing *)
  Definition cancel (e d : tf_op) : bool :=
    match e, d with
    | Mix c i j, Unmix c' i' j' | Unmix c i j, Mix c' i' j' => (c =? c') && (i =? i')%nat && (j =? j')%nat
    | AddK i t, SubK i' t' | SubK i t, AddK i' t' => (i =? i')%nat && terms_eqb t t'
    | _, _ => false
    end.
  Lemma terms_eqb_eq : forall s t, terms_eqb s t = true -> s = t.
  Proof.
    intros [|x [|]] [|y [|]]; cbn [terms_eqb]; try discriminate. intros H. f_equal.
    destruct x, y; cbn [term_eqb] in H; try discriminate; f_equal; try (apply Nat.eqb_eq; auto; fail).
    apply Z.eqb_eq; auto.
  Qed.

  Lemma upd_comm : forall i j (x y : Z) g, i <> j -> upd i x (upd j y g) = upd j y (upd i x g).
  Proof.
    induction i; intros j x y g H; destruct j, g; cbn [upd]; auto; try lia. f_equal. apply IHi. lia.
  Qed.
  (** The words a statement writes depend only on the words at its places. *)
  Lemma step_nth : forall o g i, ~ In i (places o) -> nth i (tf_step rk tw g o) 0 = nth i g 0.
  Proof.
    intros o g i H. destruct o; cbn [places] in H; cbn [tf_step]; rewrite ?upd_nth_neq; auto;
      intros ->; apply H; cbn [In]; auto.
  Qed.
  Lemma step_same : forall o g h i, wf o = true -> length g = n -> length h = n ->
    (forall j, In j (places o) -> nth j g 0 = nth j h 0) -> In i (places o) ->
    nth i (tf_step rk tw g o) 0 = nth i (tf_step rk tw h o) 0.
  Proof.
    intros o g h i F Lg Lh E Hi.
    destruct o as [c a b|c a b|a t|a t]; cbn [wf places] in *; rewrite !andb_true_iff in F; cbn [tf_step].
    - destruct F as [[Fa Fb] Fn]. apply Nat.ltb_lt in Fa, Fb. apply negb_true_iff, Nat.eqb_neq in Fn.
      pose proof (E a (or_introl eq_refl)) as Ea. pose proof (E b (or_intror (or_introl eq_refl))) as Eb.
      rewrite !(upd_nth_neq a b) by auto. rewrite !(upd_nth_eq a) by lia.
      destruct Hi as [<-|[<-|[]]].
      + rewrite !(upd_nth_neq b a) by auto. rewrite !upd_nth_eq by lia. congruence.
      + rewrite !(upd_nth_eq b) by (rewrite ?upd_length; lia). congruence.
    - destruct F as [[Fa Fb] Fn]. apply Nat.ltb_lt in Fa, Fb. apply negb_true_iff, Nat.eqb_neq in Fn.
      pose proof (E a (or_introl eq_refl)) as Ea. pose proof (E b (or_intror (or_introl eq_refl))) as Eb.
      rewrite !(upd_nth_neq b a) by auto. rewrite !(upd_nth_eq b) by lia.
      destruct Hi as [<-|[<-|[]]].
      + rewrite !(upd_nth_eq a) by (rewrite ?upd_length; lia). congruence.
      + rewrite !(upd_nth_neq a b) by auto. rewrite !upd_nth_eq by lia. congruence.
    - destruct F as [Fa _]. apply Nat.ltb_lt in Fa. destruct Hi as [<-|[]].
      rewrite !upd_nth_eq by lia. rewrite (E a) by (left; auto). reflexivity.
    - destruct F as [Fa _]. apply Nat.ltb_lt in Fa. destruct Hi as [<-|[]].
      rewrite !upd_nth_eq by lia. rewrite (E a) by (left; auto). reflexivity.
  Qed.
  Lemma apart_in : forall a b i, apart a b = true -> In i (places a) -> In i (places b) -> False.
  Proof.
    intros a b i H Ha Hb. unfold apart in H. rewrite forallb_forall in H. specialize (H i Ha).
    rewrite forallb_forall in H. specialize (H i Hb). rewrite Nat.eqb_refl in H. discriminate.
  Qed.
  Lemma step_len : forall o g, length (tf_step rk tw g o) = length g.
  Proof. destruct o; intros; cbn [tf_step]; rewrite ?upd_length; auto. Qed.

  Lemma commute_step : forall a b g, wf a = true -> wf b = true -> wok g -> commute a b = true ->
    tf_step rk tw (tf_step rk tw g a) b = tf_step rk tw (tf_step rk tw g b) a.
  Proof.
    intros a b g Fa Fb Hg H. unfold commute in H. apply orb_prop in H. destruct H as [H|H].
    - destruct Hg as [_ L]. apply (nth_ext _ _ 0 0); [rewrite !step_len; auto|]. intros i _.
      destruct (in_dec Nat.eq_dec i (places a)) as [Ia|Na].
      + rewrite (step_nth b) by (intros Ib; eapply apart_in; eauto).
        apply step_same; auto; [rewrite step_len; auto|]. intros j Hj. symmetry. apply step_nth.
        intros Hb. eapply apart_in; eauto.
      + rewrite (step_nth a (tf_step rk tw g b)) by auto.
        destruct (in_dec Nat.eq_dec i (places b)) as [Ib|Nb].
        * apply step_same; auto; [rewrite step_len; auto|]. intros j Hj. apply step_nth.
          intros Ha. eapply apart_in; eauto.
        * rewrite !step_nth by auto. reflexivity.
    - apply andb_prop in H. destruct H as [Aa Ab].
      assert (Q : forall i x j y, i = j \/ i <> j -> (i < n)%nat -> (j < n)%nat ->
        forall f h : Z -> Z -> Z, (forall u, f (h u y) x = h (f u x) y) ->
        upd i (f (nth i (upd j (h (nth j g 0) y) g) 0) x) (upd j (h (nth j g 0) y) g) =
        upd j (h (nth j (upd i (f (nth i g 0) x) g) 0) y) (upd i (f (nth i g 0) x) g)).
      { intros i x j y [<-|D] Hi Hj f h C; destruct Hg as [_ L].
        - rewrite !upd_nth_eq, !upd_twice, C by lia. reflexivity.
        - rewrite !upd_nth_neq by auto. apply upd_comm; auto. }
      assert (D : forall i j : nat, i = j \/ i <> j) by (intros; lia).
      destruct a as [| |i s|i s]; try discriminate; destruct b as [| |j t|j t]; try discriminate;
        cbn [wf] in Fa, Fb; apply andb_prop in Fa, Fb; destruct Fa as [Fa _], Fb as [Fb _];
        apply Nat.ltb_lt in Fa, Fb; cbn [tf_step].
      + apply (Q j _ i _ (D j i) Fb Fa (wadd 64) (wadd 64)). intros u. unfold wadd.
        rewrite !Zplus_mod_idemp_l. f_equal. lia.
      + apply (Q j _ i _ (D j i) Fb Fa (wsub 64) (wadd 64)). intros u. unfold wadd, wsub.
        rewrite Zminus_mod_idemp_l, Zplus_mod_idemp_l. f_equal. lia.
      + apply (Q j _ i _ (D j i) Fb Fa (wadd 64) (wsub 64)). intros u. unfold wadd, wsub.
        rewrite Zminus_mod_idemp_l, Zplus_mod_idemp_l. f_equal. lia.
      + apply (Q j _ i _ (D j i) Fb Fa (wsub 64) (wsub 64)). intros u. unfold wsub.
        rewrite !Zminus_mod_idemp_l. f_equal. lia.
  Qed.
  Ltac nths i j :=
    repeat first [ rewrite (upd_nth_neq j i) by auto | rewrite (upd_nth_neq i j) by auto
                 | rewrite (upd_nth_eq i) by (rewrite ?upd_length; lia) | rewrite (upd_nth_eq j) by (rewrite ?upd_length; lia) ].
  Lemma cancel_step : forall e d g, wf e = true -> wok g -> cancel e d = true ->
    tf_step rk tw (tf_step rk tw g e) d = g.
  Proof.
    intros e d g F [Hg L] H.
    destruct e as [c i j|c i j|i s|i s], d as [c' i' j'|c' i' j'|i' s'|i' s']; cbn [cancel] in H; try discriminate;
      rewrite !andb_true_iff in H; cbn [wf] in F; rewrite !andb_true_iff in F.
    - destruct H as [[Hc Hi] Hj]. apply Z.eqb_eq in Hc. apply Nat.eqb_eq in Hi, Hj. subst c' i' j'.
      destruct F as [[Fi Fj] Fn]. apply Nat.ltb_lt in Fi, Fj. apply negb_true_iff, Nat.eqb_neq in Fn. cbn [tf_step].
      nths i j. rewrite lxor_twice, (rotr_rotl 64) by (auto using mask64; lia). nths i j.
      rewrite (wsub_wadd 64) by auto. rewrite upd_twice, (upd_comm j i), upd_twice by auto. rewrite !upd_self. reflexivity.
    - destruct H as [[Hc Hi] Hj]. apply Z.eqb_eq in Hc. apply Nat.eqb_eq in Hi, Hj. subst c' i' j'.
      destruct F as [[Fi Fj] Fn]. apply Nat.ltb_lt in Fi, Fj. apply negb_true_iff, Nat.eqb_neq in Fn. cbn [tf_step].
      nths i j. rewrite (wadd_wsub 64) by auto. nths i j.
      rewrite (rotl_rotr 64) by (auto using mask64; lia). rewrite lxor_twice.
      rewrite upd_twice, (upd_comm i j), upd_twice by auto. rewrite !upd_self. reflexivity.
    - destruct H as [Hi Ht]. apply Nat.eqb_eq in Hi. apply terms_eqb_eq in Ht. subst i' s'.
      destruct F as [Fi _]. apply Nat.ltb_lt in Fi. cbn [tf_step]. rewrite upd_nth_eq, upd_twice by lia.
      rewrite (wsub_wadd 64) by auto. apply upd_self.
    - destruct H as [Hi Ht]. apply Nat.eqb_eq in Hi. apply terms_eqb_eq in Ht. subst i' s'.
      destruct F as [Fi _]. apply Nat.ltb_lt in Fi. cbn [tf_step]. rewrite upd_nth_eq, upd_twice by lia.
      rewrite (wadd_wsub 64) by auto. apply upd_self.
  Qed.

  (** [re]: the statements done so far, last first. Take out the one that [d] cancels. *)
  Fixpoint pull (d : tf_op) (re : list tf_op) : option (list tf_op) :=
    match re with
    | [] => None
    | e :: re' =>
        if cancel e d then Some re'
        else if commute e d then match pull d re' with Some r => Some (e :: r) | None => None end
        else None
    end.
  Fixpoint undone (re ds : list tf_op) : bool :=
    match ds with
    | [] => match re with [] => true | _ => false end
    | d :: ds' => match pull d re with Some re' => undone re' ds' | None => false end
    end.
  Lemma forallb_tl : forall (p : tf_op -> bool) x l, forallb p (x :: l) = true -> p x = true /\ forallb p l = true.
  Proof. intros p x l H. cbn [forallb] in H. apply andb_prop in H. auto. Qed.
  Lemma pull_run : forall d re re' g, wf d = true -> forallb wf re = true -> wok g -> pull d re = Some re' ->
    tf_step rk tw (tf_run rk tw (rev re) g) d = tf_run rk tw (rev re') g /\ forallb wf re' = true.
  Proof.
    intros d. induction re as [|e re IH]; intros re' g Fd F Hg H; cbn [pull] in H; [discriminate|].
    apply forallb_tl in F. destruct F as [Fe F]. cbn [rev]. rewrite run_app. unfold tf_run at 1. cbn [fold_left].
    destruct (cancel e d) eqn:C.
    - injection H as <-. split; auto. apply cancel_step; auto using run_ok.
    - destruct (commute e d) eqn:M; [|discriminate]. destruct (pull d re) as [r|] eqn:P; [|discriminate].
      injection H as <-. destruct (IH r g Fd F Hg eq_refl) as [E Fr]. split.
      + rewrite commute_step by (auto using run_ok). rewrite E. cbn [rev]. rewrite run_app. reflexivity.
      + cbn [forallb]. rewrite Fe, Fr. reflexivity.
  Qed.
  Lemma undone_run : forall ds re g, forallb wf ds = true -> forallb wf re = true -> wok g -> undone re ds = true ->
    tf_run rk tw ds (tf_run rk tw (rev re) g) = g.
  Proof.
    induction ds as [|d ds IH]; intros re g Fd F Hg H; cbn [undone] in H.
    - destruct re; [reflexivity|discriminate].
    - apply forallb_tl in Fd. destruct Fd as [Fd Fds]. destruct (pull d re) as [re'|] eqn:P; [|discriminate].
      destruct (pull_run d re re' g Fd F Hg P) as [E F']. change (tf_run rk tw (d :: ds) ?x) with (tf_run rk tw ds (tf_step rk tw x d)).
      rewrite E. apply IH; auto.
  Qed.

  Definition undo_check (es ds : list tf_op) : bool :=
    forallb wf es && forallb wf ds &&
    forallb wf (flat_map split1 es) && forallb wf (flat_map split1 ds) &&
    undone (rev (flat_map split1 es)) (flat_map split1 ds).
  Lemma undo_check_run : forall es ds g, undo_check es ds = true -> wok g ->
    tf_run rk tw ds (tf_run rk tw es g) = g.
  Proof.
    intros es ds g H Hg. unfold undo_check in H. rewrite !andb_true_iff in H.
    destruct H as [[[[F1 F2] F3] F4] U].
    rewrite <- (run_split es g), <- (run_split ds) by (auto using run_ok).
    rewrite <- (rev_involutive (flat_map split1 es)). apply undone_run; auto.
    rewrite forallb_forall in *. intros x Hx. apply F3. apply in_rev. auto.
  Qed.
End Tf.

Lemma tf_cipher : forall n es ds key tweak, undo_check n es ds = true -> undo_check n ds es = true ->
  block_cipher (n * 8) (tf_process n es key tweak) (tf_process n ds key tweak).
Proof.
  intros n es ds key tweak H1 H2. unfold tf_process. apply process_cipher; [lia| |];
    change (8 * Z.of_nat 8) with 64; intros ws F L.
  - eexists. split; [reflexivity|]. destruct (run_ok (tf_key n key) (tf_tweak tweak) n es ws) as [A B]; [split; auto|].
    split; [exact A|]. split; [exact B|]. rewrite (undo_check_run _ _ n); auto. split; auto.
  - eexists. split; [reflexivity|]. destruct (run_ok (tf_key n key) (tf_tweak tweak) n ds ws) as [A B]; [split; auto|].
    split; [exact A|]. split; [exact B|]. rewrite (undo_check_run _ _ n); auto. split; auto.
Qed.
Lemma tf256_check : undo_check 4 tf256_enc_ops tf256_dec_ops = true /\ undo_check 4 tf256_dec_ops tf256_enc_ops = true.
Proof. vm_compute. auto. Qed.
Lemma tf512_check : undo_check 8 tf512_enc_ops tf512_dec_ops = true /\ undo_check 8 tf512_dec_ops tf512_enc_ops = true.
Proof. vm_compute. auto. Qed.
Lemma tf1024_check : undo_check 16 tf1024_enc_ops tf1024_dec_ops = true /\ undo_check 16 tf1024_dec_ops tf1024_enc_ops = true.
Proof. vm_compute. auto. Qed.
