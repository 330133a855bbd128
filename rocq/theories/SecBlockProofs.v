From Coq Require Import ZArith List Arith Lia Bool.
From Verif Require Import Base SecBlockModel SecBlockSpec.
Import ListNotations.

Section Proofs.
Variable junk : nat -> nat -> Z.
Variable avail : nat -> nat -> bool.


(** Pointer [p] to a block of [n] elements, and nothing else allocated. *)
Definition good (fixed : option nat) (s : st) (p : ptr) (n : nat) : Prop :=
  match p with
  | PNull => n = 0 /\ m_used s = false
  | PStatic => (exists S_, fixed = Some S_ /\ n <= S_) /\ m_used s = true
  | PHeap i => m_used s = false /\ 0 < n /\ exists l, nth i (m_heap s) None = Some l /\ length l = n
  end.
Definition alone (s : st) (p : ptr) : Prop := forall j, p <> PHeap j -> nth j (m_heap s) None = None.
Definition base (fixed : option nat) (s : st) : Prop :=
  (forall S_, fixed = Some S_ -> length (m_stat s) = S_) /\ Forall all_zero (m_freed s).
Definition inv (fixed : option nat) (s : st) : Prop :=
  good fixed s (m_ptr s) (m_size s) /\ alone s (m_ptr s) /\ base fixed s.

Lemma nth_upd_eq : forall {A} i (x d : A) l, i < length l -> nth i (upd i x l) d = x.
Proof. intros. apply upd_nth_eq. auto. Qed.

Lemma nth_some_lt : forall {A} i (l : list (option A)) x, nth i l None = Some x -> i < length l.
Proof.
  intros A i l x H. destruct (Nat.lt_ge_cases i (length l)); auto.
  rewrite nth_overflow in H by lia. discriminate.
Qed.

Lemma good_cells : forall fixed s p n, base fixed s -> good fixed s p n -> exists c, cells fixed s p = Some c /\ n <= length c.
Proof.
  intros fixed s p n (B & _) G. destruct p; cbn in *.
  - exists []. split; auto. lia.
  - destruct G as ((S_ & E & L) & _). subst fixed. exists (m_stat s). rewrite (B _ eq_refl). auto.
  - destruct G as (_ & _ & l & E & L). exists l. split; auto. lia.
Qed.

Lemma all_zero_repeat : forall n, all_zero (repeat 0%Z n).
Proof. intros. apply Forall_forall. intros x H. apply repeat_spec in H. auto. Qed.

(** Storing through a good pointer. *)
Lemma store_good : forall fixed s p n at_ l, base fixed s -> good fixed s p n -> at_ + length l <= n ->
  exists s' c, cells fixed s p = Some c /\ store fixed s p at_ l = Done s'
    /\ s' = set_cells s p (firstn at_ c ++ l ++ skipn (at_ + length l) c)
    /\ (p <> PNull -> cells fixed s' p = Some (firstn at_ c ++ l ++ skipn (at_ + length l) c)).
Proof.
  intros fixed s p n at_ l B G H. destruct (good_cells fixed s p n B G) as (c & E & L).
  exists (set_cells s p (firstn at_ c ++ l ++ skipn (at_ + length l) c)), c.
  split; [exact E|]. unfold store. rewrite E.
  destruct (Nat.leb_spec (at_ + length l) (length c)); [|lia].
  split; [reflexivity|]. split; [reflexivity|]. intros HP. destruct p; cbn in *.
  - congruence.
  - destruct fixed; [reflexivity|discriminate].
  - apply nth_upd_eq. eapply nth_some_lt; eauto.
Qed.

Lemma blit_length : forall {A} at_ (l c : list A), at_ + length l <= length c ->
  length (firstn at_ c ++ l ++ skipn (at_ + length l) c) = length c.
Proof. intros. rewrite !app_length, firstn_length, skipn_length. lia. Qed.

Lemma set_cells_good : forall fixed s p n c c' q m, base fixed s -> good fixed s p n -> cells fixed s p = Some c -> length c' = length c ->
  (q = p \/ True) -> good fixed s q m ->
  good fixed (set_cells s p c') q m /\ base fixed (set_cells s p c').
Proof.
  intros fixed s p n c c' q m B G E L _ GQ. destruct B as (B1 & B2). destruct p; cbn in *.
  - repeat split; auto.
  - destruct fixed as [S_|]; [|discriminate]. injection E as <-. split.
    + destruct q; cbn in *; auto.
    + split; auto. cbn. intros S' E'. rewrite L. auto.
  - split; [|split; auto]. destruct q; cbn in *; auto.
    destruct GQ as (U & P & l & N & LL). split; [auto|split; auto].
    destruct (Nat.eq_dec id id0) as [->|Hne].
    + exists c'. rewrite nth_upd_eq by (eapply nth_some_lt; eauto). split; auto. congruence.
    + exists l. rewrite upd_nth_neq by auto. auto.
Qed.

Lemma set_cells_alone : forall fixed s p c' q, alone s q -> cells fixed s p <> None -> (p = q \/ p = PNull \/ p = PStatic) ->
  alone (set_cells s p c') q.
Proof.
  intros fixed s p c' q A NC H j Hj. destruct p; cbn in *; auto.
  destruct H as [<-|[H|H]]; try discriminate.
  rewrite upd_nth_neq; [auto|]. intros ->. congruence.
Qed.

(** Allocation. *)
Lemma heap_allocate_spec : forall fixed s n, base fixed s ->
  match heap_allocate junk avail s n with
  | Done (s', p) =>
      m_stat s' = m_stat s /\ m_used s' = m_used s /\ m_ptr s' = m_ptr s /\ m_size s' = m_size s
      /\ m_freed s' = m_freed s
      /\ ((p = PNull /\ n = 0 /\ m_heap s' = m_heap s)
          \/ (0 < n /\ p = PHeap (length (m_heap s)) /\ exists l, length l = n /\ m_heap s' = m_heap s ++ [Some l]))
  | Exn s' => s' = s
  | Crash => False
  end.
Proof.
  intros fixed s n B. unfold heap_allocate. destruct (Nat.eqb_spec n 0) as [->|Hn].
  - repeat split; auto.
  - destruct (avail (length (m_heap s)) n); [|reflexivity].
    cbn. repeat split; auto. right. split; [lia|]. split; auto. eexists. split; [|reflexivity].
    rewrite map_length, seq_length. reflexivity.
Qed.

(** Freeing the only block. *)
Lemma heap_deallocate_spec : forall fixed s i n l, base fixed s ->
  nth i (m_heap s) None = Some l -> length l = n ->
  exists s', heap_deallocate fixed s (PHeap i) n = Done s'
    /\ m_heap s' = upd i None (m_heap s) /\ m_stat s' = m_stat s /\ m_used s' = m_used s
    /\ m_ptr s' = m_ptr s /\ m_size s' = m_size s /\ base fixed s'.
Proof.
  intros fixed s i n l (B1 & B2) N L. unfold heap_deallocate, store. cbn [cells].
  rewrite N. rewrite repeat_length. cbn [Nat.add]. rewrite L, Nat.leb_refl. cbn [set_cells m_heap].
  rewrite nth_upd_eq by (eapply nth_some_lt; eauto).
  rewrite firstn_O. rewrite skipn_all2 by lia. rewrite app_nil_r. cbn [app].
  eexists. split; [reflexivity|]. cbn. repeat split; auto.
  - clear. revert i. induction (m_heap s) as [|x t IH]; destruct i; cbn; auto. f_equal. apply IH.
  - apply Forall_app. split; auto. constructor; [apply all_zero_repeat|constructor].
Qed.

Lemma nth_upd_none : forall {A} i j (l : list (option A)),
  (i <> j -> nth j l None = None) -> nth j (upd i None l) None = None.
Proof.
  intros A i j l H. destruct (Nat.eq_dec i j) as [->|Hne].
  - destruct (Nat.lt_ge_cases j (length l)).
    + apply upd_nth_eq. auto.
    + apply nth_overflow. rewrite upd_length. auto.
  - rewrite upd_nth_neq by auto. auto.
Qed.

Lemma firstn_min : forall {A} a b (l : list A), firstn a (firstn b l) = firstn (Nat.min a b) l.
Proof. intros. apply firstn_firstn. Qed.

(** Reallocation. [c] is the content before. *)
Lemma reallocate_spec : forall fixed s n preserve c, inv fixed s -> content fixed s = Some c ->
  match reallocate fixed junk avail s (m_ptr s) (m_size s) n preserve with
  | Done (s', p) =>
      inv fixed (set_block s' p n) /\ m_size s' = m_size s
      /\ exists c', content fixed (set_block s' p n) = Some c' /\ length c' = n
           /\ (preserve = true -> firstn (length c) c' = firstn n c)
  | Exn s' => (preserve = true \/ fixed <> None -> s' = s)
              /\ Forall all_zero (m_freed s')
  | Crash => False
  end.
Proof.
  intros fixed s n preserve c I C.
  destruct I as (G & A & B). destruct (good_cells fixed s _ _ B G) as (k & EK & LK).
  unfold content in C. rewrite EK in C. injection C as <-.
  assert (LC : length (firstn (m_size s) k) = m_size s) by (rewrite firstn_length; lia).
  unfold reallocate. destruct fixed as [S_|].
  - (* FixedSizeAllocatorWithCleanup *)
    destruct (m_ptr s) eqn:P.
    + (* a null pointer *)
      cbn [cells] in EK. injection EK as <-. cbn in LK.
      destruct G as [G0 GU].
      unfold allocate. rewrite GU. cbn [negb]. rewrite andb_true_r.
      destruct (Nat.leb_spec n S_).
      * unfold copy_over. cbn [is_null negb andb].
        replace (if preserve && negb (n =? 0) then Done _ else Done _) with
          (Done (A:=st) (mkst (m_heap s) (m_stat s) true (m_ptr s) (m_size s) (m_mark s) (m_freed s)))
          by (destruct (preserve && negb (n =? 0)); reflexivity).
        unfold deallocate.  cbn [heap_deallocate].
        split; [|split; [reflexivity|]].
        -- split; [|split]; cbn; auto.
           ++ split; [exists S_; auto|reflexivity].
           ++ intros j Hj. apply A. congruence.
        -- unfold content. cbn.  eexists. split; [reflexivity|].
           rewrite firstn_length. rewrite (proj1 B _ eq_refl). split; [lia|].
           intros _. rewrite G0. rewrite !firstn_nil. reflexivity.
      * pose proof (heap_allocate_spec _ s n B) as HA.
        destruct (heap_allocate junk avail s n) as [[s1 p]|s1|]; [| |contradiction].
        2:{ subst s1. split; auto. apply B. }
        destruct HA as (H1 & H2 & H3 & H4 & H5 & [(-> & -> & H6)|(Hn & -> & l & Ll & H6)]); [lia|].
        unfold copy_over. cbn [is_null negb andb].
        replace (if preserve && negb (n =? 0) then Done s1 else Done s1) with (Done (A:=st) s1)
          by (destruct (preserve && negb (n =? 0)); reflexivity).
        unfold deallocate.  cbn [heap_deallocate].
        split; [|split; [congruence|]].
        -- split; [|split]; cbn.
           ++ split; [congruence|]. split; auto. exists l. rewrite H6, app_nth2, Nat.sub_diag by lia. auto.
           ++ intros j Hj. cbn. rewrite H6.
              destruct (Nat.lt_ge_cases j (length (m_heap s))).
              ** rewrite app_nth1 by lia. apply A. congruence.
              ** rewrite nth_overflow; auto. rewrite app_length. cbn.
                 assert (j <> length (m_heap s)) by congruence. lia.
           ++ split; cbn; [rewrite H1|rewrite H5]; apply B.
        -- unfold content. cbn. rewrite H6, app_nth2, Nat.sub_diag by lia. cbn.
           eexists. split; [reflexivity|]. rewrite firstn_length. split; [lia|].
           intros _. rewrite G0, !firstn_nil. reflexivity.
    + (* the fixed array *)
      destruct G as ((S0 & E0 & LS) & GU). injection E0 as <-.
      cbn [cells] in EK. injection EK as <-.
      pose proof (proj1 B _ eq_refl) as LST.
      destruct (Nat.leb_spec n S_).
      * assert (GS : good (Some S_) s PStatic (m_size s)) by (split; eauto).
        assert (forall s', m_heap s' = m_heap s -> length (m_stat s') = S_ -> m_used s' = true -> m_freed s' = m_freed s ->
                  firstn (Nat.min (m_size s) n) (m_stat s') = firstn (Nat.min (m_size s) n) (m_stat s) ->
                  m_size s' = m_size s ->
                  inv (Some S_) (set_block s' PStatic n) /\ m_size s' = m_size s /\
                  (exists c', content (Some S_) (set_block s' PStatic n) = Some c' /\ length c' = n /\
                     (preserve = true -> firstn (length (firstn (m_size s) (m_stat s))) c' = firstn n (firstn (m_size s) (m_stat s))))) as FIN.
        { intros s' Q1 Q2 Q3 Q4 Q5 Q6. split; [|split; auto].
          - split; [|split]; cbn; auto.
            + split; auto. exists S_. auto.
            + intros j Hj. cbn. rewrite Q1. apply A. congruence.
            + split; cbn; [intros S' E'; injection E' as <-; auto|rewrite Q4; apply B].
          - unfold content. cbn.  eexists. split; [reflexivity|].
            rewrite !firstn_length, LST, Q2. split; [lia|]. intros _.
            rewrite !firstn_min. rewrite (Nat.min_l (m_size s)) by lia.
            rewrite Q5. f_equal. lia. }
        
        destruct (Nat.ltb_spec n (m_size s)).
        -- unfold store. cbn [cells]. rewrite repeat_length.
           destruct (Nat.leb_spec (n + (m_size s - n)) (length (m_stat s))); [|lia].
           apply FIN; cbn; auto.
           ++ rewrite !app_length, firstn_length, skipn_length, repeat_length. lia.
           ++ rewrite firstn_app, firstn_firstn, firstn_length.
              replace (Nat.min (m_size s) n - Nat.min n (length (m_stat s))) with 0 by lia.
              rewrite firstn_O, app_nil_r. f_equal. lia.
        -- apply FIN; auto.
      * (* out of the fixed array *)
        unfold allocate. 
        destruct (Nat.leb_spec n S_); [lia|]. cbn [andb].
        pose proof (heap_allocate_spec _ s n B) as HA.
        destruct (heap_allocate junk avail s n) as [[s1 p]|s1|]; [| |contradiction].
        2:{ subst s1. split; auto. apply B. }
        destruct HA as (H1 & H2 & H3 & H4 & H5 & [(-> & -> & H6)|(Hn & -> & l & Ll & H6)]); [lia|].
        set (i := length (m_heap s)) in *.
        assert (N1 : nth i (m_heap s1) None = Some l) by (rewrite H6; unfold i; rewrite app_nth2, Nat.sub_diag by lia; reflexivity).
        assert (HNZ : (n =? 0) = false) by (apply Nat.eqb_neq; lia). rewrite HNZ. cbn [negb]. rewrite andb_true_r.
        set (l1 := if preserve then firstn (m_size s) (m_stat s) ++ skipn (m_size s) l else l).
        assert (CP : (if preserve then copy_over (Some S_) s1 PStatic (PHeap i) (Nat.min (m_size s) n) else Done s1)
                     = Done (set_cells s1 (PHeap i) l1)).
        { unfold l1. destruct preserve.
          - unfold copy_over. cbn [is_null negb andb]. unfold fetch. cbn [cells]. rewrite H1.
            rewrite (Nat.min_l (m_size s) n) by lia. cbn [Nat.add skipn].
            destruct (Nat.leb_spec (m_size s) (length (m_stat s))); [|lia].
            unfold store. cbn [cells]. rewrite N1, firstn_length. cbn [Nat.add].
            rewrite (Nat.min_l (m_size s)) by lia.
            destruct (Nat.leb_spec (m_size s) (length l)); [|lia].
            rewrite firstn_O. reflexivity.
          - f_equal. cbn [set_cells]. rewrite H6. unfold i.
            assert (forall (h : list (option (list Z))) x, upd (length h) x (h ++ [x]) = h ++ [x]) as U
              by (induction h as [|y h IH]; intros; cbn; [reflexivity|rewrite IH; reflexivity]).
            rewrite U, <- H6. destruct s1; reflexivity. }
        rewrite CP.
        assert (LL1 : length l1 = n).
        { unfold l1. destruct preserve; auto. rewrite app_length, firstn_length, skipn_length. lia. }
        unfold deallocate. 
        unfold store. cbn [cells set_cells m_stat m_heap m_used m_ptr m_size m_mark m_freed].
        rewrite H1, repeat_length. cbn [Nat.add].
        destruct (Nat.leb_spec (m_size s) (length (m_stat s))); [|lia].
        cbn [set_cells m_stat m_heap m_used m_ptr m_size m_mark m_freed].
        assert (NI : nth i (upd i (Some l1) (m_heap s1)) None = Some l1)
          by (apply nth_upd_eq; eapply nth_some_lt; eauto).
        split; [|split; [exact H4|]].
        -- split; [|split]; cbn.
           ++ split; auto. split; auto. exists l1. auto.
           ++ intros j Hj. cbn. rewrite upd_nth_neq by congruence. rewrite H6.
              destruct (Nat.lt_ge_cases j i).
              ** rewrite app_nth1 by lia. apply A. congruence.
              ** rewrite nth_overflow; auto. rewrite app_length. cbn.
                 assert (j <> i) by congruence. unfold i in *. lia.
           ++ split; cbn; [|rewrite H5; apply B].
              intros S' E'. injection E' as <-.
              rewrite app_length, repeat_length, skipn_length. lia.
        -- unfold content. cbn. rewrite NI. eexists. split; [reflexivity|].
           rewrite firstn_length. split; [lia|]. intros ->.
           rewrite LC. rewrite firstn_min. rewrite Nat.min_l by lia.
           unfold l1. rewrite firstn_app, firstn_length.
           replace (m_size s - Nat.min (m_size s) (length (m_stat s))) with 0 by lia.
           rewrite firstn_O, app_nil_r, !firstn_min. f_equal. lia.
    + (* from the heap *)
      destruct G as (GU & GP & l0 & N0 & L0).
      cbn [cells] in EK. rewrite N0 in EK. injection EK as <-.
      unfold allocate. rewrite GU. cbn [negb]. rewrite andb_true_r.
      destruct (Nat.leb_spec n S_).
      * (* into the fixed array *)
        pose proof (proj1 B _ eq_refl) as LST.
        set (s1 := mkst (m_heap s) (m_stat s) true (m_ptr s) (m_size s) (m_mark s) (m_freed s)).
        set (a1 := if preserve && negb (n =? 0) then firstn (Nat.min (m_size s) n) l0 ++ skipn (Nat.min (m_size s) n) (m_stat s) else m_stat s).
        assert (CP : (if preserve && negb (n =? 0) then copy_over (Some S_) s1 (PHeap id) PStatic (Nat.min (m_size s) n) else Done s1)
                     = Done (set_cells s1 PStatic a1)).
        { unfold a1. destruct (preserve && negb (n =? 0)); [|reflexivity].
          unfold copy_over. cbn [is_null negb andb]. unfold fetch. cbn [cells s1 m_heap]. rewrite N0.
          cbn [Nat.add skipn]. destruct (Nat.leb_spec (Nat.min (m_size s) n) (length l0)); [|lia].
          unfold store. cbn [cells]. rewrite firstn_length. cbn [Nat.add s1 m_stat].
          rewrite (Nat.min_l _ (length l0)) by lia.
          destruct (Nat.leb_spec (Nat.min (m_size s) n) (length (m_stat s))); [|lia].
          rewrite firstn_O. reflexivity. }
        rewrite CP.
        assert (LA1 : length a1 = S_).
        { unfold a1. destruct (preserve && negb (n =? 0)); auto.
          rewrite app_length, firstn_length, skipn_length. lia. }
        unfold deallocate. 
        assert (B1 : base (Some S_) (set_cells s1 PStatic a1)).
        { split; cbn; [intros S' E'; injection E' as <-; auto|apply B]. }
        destruct (heap_deallocate_spec _ (set_cells s1 PStatic a1) id (m_size s) l0 B1 N0 L0)
          as (s2 & E2 & Q1 & Q2 & Q3 & Q4 & Q5 & B2).
         rewrite E2. cbn [set_cells s1 m_stat m_heap m_used m_ptr m_size m_mark m_freed] in *.
        split; [|split; [exact Q5|]].
        -- split; [|split]; cbn.
           ++ split; auto. exists S_. auto.
           ++ intros j Hj. cbn. rewrite Q1. apply nth_upd_none. intros. apply A. congruence.
           ++ destruct B2. split; auto.
        -- unfold content. cbn.  eexists. split; [reflexivity|].
           rewrite Q2, firstn_length. split; [lia|]. intros ->. rewrite LC.
           rewrite !firstn_min. unfold a1. cbn [andb]. destruct (Nat.eqb_spec n 0) as [->|]; cbn [negb].
           ++ rewrite !Nat.min_0_r. reflexivity.
           ++ rewrite firstn_app, firstn_length.
              replace (Nat.min (m_size s) n - Nat.min (Nat.min (m_size s) n) (length l0)) with 0 by lia.
              rewrite firstn_O, app_nil_r, firstn_min. f_equal. lia.
      * pose proof (heap_allocate_spec _ s n B) as HA.
        destruct (heap_allocate junk avail s n) as [[s1 p]|s1|]; [| |contradiction].
        2:{ subst s1. split; auto. apply B. }
        destruct HA as (H1 & H2 & H3 & H4 & H5 & [(-> & -> & H6)|(Hn & -> & l & Ll & H6)]); [lia|].
        set (i := length (m_heap s)) in *.
        assert (N1 : nth i (m_heap s1) None = Some l) by (rewrite H6; unfold i; rewrite app_nth2, Nat.sub_diag by lia; reflexivity).
        pose proof (nth_some_lt _ _ _ N0) as LID.
        assert (NID : nth id (m_heap s1) None = Some l0) by (rewrite H6, app_nth1 by lia; auto).
        assert (HNZ : (n =? 0) = false) by (apply Nat.eqb_neq; lia). rewrite HNZ. cbn [negb]. rewrite andb_true_r.
        set (mn := Nat.min (m_size s) n).
        set (l1 := if preserve then firstn mn l0 ++ skipn mn l else l).
        assert (CP : (if preserve then copy_over (Some S_) s1 (PHeap id) (PHeap i) mn else Done s1)
                     = Done (set_cells s1 (PHeap i) l1)).
        { unfold l1. destruct preserve.
          - unfold copy_over. cbn [is_null negb andb]. unfold fetch. cbn [cells]. rewrite NID.
            cbn [Nat.add skipn]. destruct (Nat.leb_spec mn (length l0)); [|unfold mn in *; lia].
            unfold store. cbn [cells]. rewrite N1, firstn_length. cbn [Nat.add].
            rewrite (Nat.min_l mn) by (unfold mn; lia).
            destruct (Nat.leb_spec mn (length l)); [|unfold mn in *; lia].
            rewrite firstn_O. reflexivity.
          - f_equal. cbn [set_cells]. rewrite H6. unfold i.
            assert (forall (h : list (option (list Z))) x, upd (length h) x (h ++ [x]) = h ++ [x]) as U
              by (induction h as [|y h IH]; intros; cbn; [reflexivity|rewrite IH; reflexivity]).
            rewrite U, <- H6. destruct s1; reflexivity. }
        rewrite CP.
        assert (LL1 : length l1 = n).
        { unfold l1. destruct preserve; auto. rewrite app_length, firstn_length, skipn_length. unfold mn. lia. }
        unfold deallocate. 
        assert (B1 : base (Some S_) (set_cells s1 (PHeap i) l1)).
        { split; cbn; [rewrite H1|rewrite H5]; apply B. }
        assert (N0' : nth id (m_heap (set_cells s1 (PHeap i) l1)) None = Some l0)
          by (cbn; rewrite upd_nth_neq; auto; unfold i; lia).
        destruct (heap_deallocate_spec _ _ id (m_size s) l0 B1 N0' L0) as (s2 & E2 & Q1 & Q2 & Q3 & Q4 & Q5 & B2).
         rewrite E2. cbn [set_cells m_stat m_heap m_used m_ptr m_size m_mark m_freed] in *.
        assert (NI : nth i (m_heap s2) None = Some l1).
        { rewrite Q1. rewrite upd_nth_neq by (unfold i; lia). apply nth_upd_eq. eapply nth_some_lt; eauto. }
        split; [|split; [congruence|]].
        -- split; [|split]; cbn.
           ++ split; [congruence|]. split; auto. exists l1. auto.
           ++ intros j Hj. cbn. rewrite Q1. apply nth_upd_none. intros Hid.
              rewrite upd_nth_neq by congruence. rewrite H6.
              destruct (Nat.lt_ge_cases j i).
              ** rewrite app_nth1 by lia. apply A. congruence.
              ** rewrite nth_overflow; auto. rewrite app_length. cbn.
                 assert (j <> i) by congruence. unfold i in *. lia.
           ++ destruct B2. split; auto.
        -- unfold content. cbn. rewrite NI. eexists. split; [reflexivity|].
           rewrite firstn_length. split; [lia|]. intros ->. rewrite LC, !firstn_min.
           unfold l1. rewrite firstn_app, firstn_length.
           replace (Nat.min (m_size s) n - Nat.min mn (length l0)) with 0 by (unfold mn; lia).
           rewrite firstn_O, app_nil_r, firstn_min. f_equal. unfold mn. lia.
  - (* AllocatorWithCleanup *)
    destruct (Nat.eqb_spec (m_size s) n) as [E|Hne].
    { split; [|split; [reflexivity|]].
      - split; [|split]; cbn; try apply B.
        + rewrite <- E. exact G.
        + exact A.
      - unfold content. cbn. replace (cells None (set_block s (m_ptr s) n) (m_ptr s)) with (cells None s (m_ptr s)) by (destruct (m_ptr s); reflexivity).
        rewrite EK. eexists. split; [reflexivity|]. subst n. split; auto.
        intros _. rewrite LC, !firstn_firstn, Nat.min_id. reflexivity. }
    destruct preserve.
    + (* copy, then free *)
      unfold allocate. 
      pose proof (heap_allocate_spec _ s n B) as HA.
      destruct (heap_allocate junk avail s n) as [[s1 p]|s1|]; [| |contradiction].
      2:{ subst s1. split; auto. apply B. }
      destruct HA as (H1 & H2 & H3 & H4 & H5 & HP).
      set (mn := Nat.min (m_size s) n).
      assert (B1 : base None s1) by (split; [rewrite H1|rewrite H5]; apply B).
      destruct HP as [(-> & -> & H6)|(Hn & -> & l & Ll & H6)].
      * (* to nothing *)
        unfold copy_over. cbn [is_null negb]. rewrite andb_false_r.
        destruct (m_ptr s) eqn:P.
        -- destruct G as [G0 _]. lia.
        -- destruct G as ((S0 & E0 & _) & _). discriminate.
        -- destruct G as (GU & GP & l0 & N0 & L0).
           unfold deallocate. 
           rewrite <- H6 in N0.
           destruct (heap_deallocate_spec _ s1 id (m_size s) l0 B1 N0 L0) as (s2 & E2 & Q1 & Q2 & Q3 & Q4 & Q5 & B2).
            rewrite E2. split; [|split; [congruence|]].
           ++ split; [|split]; cbn.
              ** split; [reflexivity|congruence].
              ** intros j _. cbn. rewrite Q1. apply nth_upd_none. intros. rewrite H6. apply A. congruence.
              ** destruct B2; split; auto.
           ++ unfold content. cbn. eexists. split; [reflexivity|]. split; [reflexivity|].
              intros _. apply firstn_nil.
      * set (i := length (m_heap s)) in *.
        assert (N1 : nth i (m_heap s1) None = Some l) by (rewrite H6; unfold i; rewrite app_nth2, Nat.sub_diag by lia; reflexivity).
        assert (A1 : forall j, m_ptr s <> PHeap j -> j <> i -> nth j (m_heap s1) None = None).
        { intros j Hj1 Hj2. rewrite H6. destruct (Nat.lt_ge_cases j i).
          - rewrite app_nth1 by lia. apply A. auto.
          - rewrite nth_overflow; auto. rewrite app_length. cbn. unfold i in *. lia. }
        destruct (m_ptr s) eqn:P.
        -- (* from nothing *)
           destruct G as [G0 GU]. unfold copy_over. cbn [is_null negb andb].
           unfold deallocate.  cbn [heap_deallocate].
           split; [|split; [congruence|]].
           ++ split; [|split]; cbn.
              ** split; [congruence|]. split; auto. exists l. auto.
              ** intros j Hj. cbn. apply A1; congruence.
              ** destruct B1; split; auto.
           ++ unfold content. cbn. rewrite N1. eexists. split; [reflexivity|].
              rewrite firstn_length. split; [lia|]. intros _.
              assert (firstn (m_size s) k = []) as -> by (rewrite G0; reflexivity).
              rewrite firstn_nil. reflexivity.
        -- destruct G as ((S0 & E0 & _) & _). discriminate.
        -- destruct G as (GU & GP & l0 & N0 & L0).
           cbn [cells] in EK. rewrite N0 in EK. injection EK as <-.
           pose proof (nth_some_lt _ _ _ N0) as LID.
           assert (NID : nth id (m_heap s1) None = Some l0) by (rewrite H6, app_nth1 by lia; auto).
           set (l1 := firstn mn l0 ++ skipn mn l).
           assert (CP : copy_over None s1 (PHeap id) (PHeap i) mn = Done (set_cells s1 (PHeap i) l1)).
           { unfold copy_over. cbn [is_null negb andb]. unfold fetch. cbn [cells]. rewrite NID.
             cbn [Nat.add skipn]. destruct (Nat.leb_spec mn (length l0)); [|unfold mn in *; lia].
             unfold store. cbn [cells]. rewrite N1, firstn_length. cbn [Nat.add].
             rewrite (Nat.min_l mn) by (unfold mn; lia).
             destruct (Nat.leb_spec mn (length l)); [|unfold mn in *; lia].
             rewrite firstn_O. reflexivity. }
            rewrite CP.
           assert (LL1 : length l1 = n).
           { unfold l1. rewrite app_length, firstn_length, skipn_length. unfold mn. lia. }
           unfold deallocate. 
           assert (B1' : base None (set_cells s1 (PHeap i) l1)) by (destruct B1; split; auto).
           assert (N0' : nth id (m_heap (set_cells s1 (PHeap i) l1)) None = Some l0)
             by (cbn; rewrite upd_nth_neq; auto; unfold i; lia).
           destruct (heap_deallocate_spec _ _ id (m_size s) l0 B1' N0' L0) as (s2 & E2 & Q1 & Q2 & Q3 & Q4 & Q5 & B2).
            rewrite E2. cbn [set_cells m_stat m_heap m_used m_ptr m_size m_mark m_freed] in *.
           assert (NI : nth i (m_heap s2) None = Some l1).
           { rewrite Q1. rewrite upd_nth_neq by (unfold i; lia). apply nth_upd_eq. eapply nth_some_lt; eauto. }
           split; [|split; [congruence|]].
           ++ split; [|split]; cbn.
              ** split; [congruence|]. split; auto. exists l1. auto.
              ** intros j Hj. cbn. rewrite Q1. apply nth_upd_none. intros Hid.
                 rewrite upd_nth_neq by congruence. apply A1; congruence.
              ** destruct B2. split; auto.
           ++ unfold content. cbn. rewrite NI. eexists. split; [reflexivity|].
              rewrite firstn_length. split; [lia|]. intros _. rewrite LC, !firstn_min.
              unfold l1. rewrite firstn_app, firstn_length.
              replace (Nat.min (m_size s) n - Nat.min mn (length l0)) with 0 by (unfold mn; lia).
              rewrite firstn_O, app_nil_r, firstn_min. f_equal. unfold mn. lia.
    + (* free, then allocate *)
      assert (exists s1, deallocate None s (m_ptr s) (m_size s) = Done s1
          /\ m_used s1 = false /\ m_size s1 = m_size s /\ base None s1
          /\ forall j, nth j (m_heap s1) None = None) as (s1 & E1 & U1 & Z1 & B1 & N1).
      { unfold deallocate. destruct (m_ptr s) eqn:P.
        - destruct G as [G0 GU]. exists s. cbn. repeat split; auto; try apply B.
          intros j. apply A. congruence.
        - destruct G as ((S0 & E0 & _) & _). discriminate.
        - destruct G as (GU & GP & l0 & N0 & L0).
          destruct (heap_deallocate_spec _ s id (m_size s) l0 B N0 L0) as (s2 & E2 & Q1 & Q2 & Q3 & Q4 & Q5 & B2).
           exists s2. split; [exact E2|]. split; [congruence|]. split; [exact Q5|]. split; [exact B2|].
          intros j. rewrite Q1. apply nth_upd_none. intros. apply A. congruence. }
      rewrite E1. unfold allocate. 
      pose proof (heap_allocate_spec _ s1 n B1) as HA.
      destruct (heap_allocate junk avail s1 n) as [[s2 p]|s2|]; [| |contradiction].
      2:{ subst s2. split; [intros [H|H]; congruence|]. apply B1. }
      destruct HA as (H1 & H2 & H3 & H4 & H5 & HP).
      assert (B2 : base None s2) by (split; [rewrite H1|rewrite H5]; apply B1).
      destruct HP as [(-> & -> & H6)|(Hn & -> & l & Ll & H6)].
      * split; [|split; [congruence|]].
        -- split; [|split]; cbn.
           ++ split; [reflexivity|congruence].
           ++ intros j _. cbn. rewrite H6. apply N1.
           ++ destruct B2; split; auto.
        -- unfold content. cbn. eexists. split; [reflexivity|]. split; [reflexivity|discriminate].
      * assert (NI : nth (length (m_heap s1)) (m_heap s2) None = Some l) by (rewrite H6, app_nth2, Nat.sub_diag by lia; reflexivity).
        split; [|split; [congruence|]].
        -- split; [|split]; cbn.
           ++ split; [congruence|]. split; auto. exists l. auto.
           ++ intros j Hj. cbn. rewrite H6. destruct (Nat.lt_ge_cases j (length (m_heap s1))).
              ** rewrite app_nth1 by lia. apply N1.
              ** rewrite nth_overflow; auto. rewrite app_length. cbn.
                 assert (j <> length (m_heap s1)) by congruence. lia.
           ++ destruct B2; split; auto.
        -- unfold content. cbn. rewrite NI. eexists. split; [reflexivity|].
           rewrite firstn_length. split; [lia|discriminate].
Qed.

Lemma content_size : forall fixed s, inv fixed s ->
  exists c, content fixed s = Some c /\ length c = m_size s.
Proof.
  intros fixed s (G & A & B). destruct (good_cells fixed s _ _ B G) as (k & EK & LK).
  unfold content. rewrite EK. eexists. split; [reflexivity|]. rewrite firstn_length. lia.
Qed.

Lemma inv_mark : forall fixed s m, inv fixed s ->
  inv fixed (mkst (m_heap s) (m_stat s) (m_used s) (m_ptr s) (m_size s) m (m_freed s)).
Proof. intros fixed s m (G & A & B). split; [|split]; [exact G|exact A|exact B]. Qed.

Lemma content_mark : forall fixed s m,
  content fixed (mkst (m_heap s) (m_stat s) (m_used s) (m_ptr s) (m_size s) m (m_freed s)) = content fixed s.
Proof. reflexivity. Qed.

Lemma firstn_blit : forall {A} n a (l k : list A), a + length l <= n -> n <= length k ->
  firstn n (firstn a k ++ l ++ skipn (a + length l) k)
  = firstn a (firstn n k) ++ l ++ skipn (a + length l) (firstn n k).
Proof.
  intros A n a l k H1 H2.
  rewrite firstn_app, firstn_length, (Nat.min_l a) by lia.
  rewrite !firstn_firstn, (Nat.min_r n a), (Nat.min_l a n) by lia. f_equal.
  rewrite firstn_app, (firstn_all2 l) by lia. f_equal.
  rewrite skipn_firstn_comm. f_equal. lia.
Qed.

(** Storing into the block. *)
Lemma store_content : forall fixed s c at_ l, inv fixed s -> content fixed s = Some c ->
  at_ + length l <= length c ->
  match store fixed s (m_ptr s) at_ l with
  | Done s' => inv fixed s' /\ m_ptr s' = m_ptr s /\ m_size s' = m_size s /\ m_freed s' = m_freed s
      /\ content fixed s' = Some (firstn at_ c ++ l ++ skipn (at_ + length l) c)
  | _ => False
  end.
Proof.
  intros fixed s c at_ l I C H. pose proof I as (G & A & B).
  destruct (content_size fixed s I) as (c0 & C0 & L0). rewrite C in C0. injection C0 as <-.
  destruct (store_good fixed s (m_ptr s) (m_size s) at_ l B G ltac:(lia)) as (s' & k & EK & ES & E' & CE).
  rewrite ES.
  destruct (good_cells fixed s _ _ B G) as (k0 & EK0 & LK). rewrite EK in EK0. injection EK0 as <-.
  assert (LB : length (firstn at_ k ++ l ++ skipn (at_ + length l) k) = length k) by (apply blit_length; lia).
  assert (PP : m_ptr s' = m_ptr s /\ m_size s' = m_size s /\ m_freed s' = m_freed s).
  { rewrite E'. unfold set_cells. destruct (m_ptr s) eqn:PQ; cbn; auto. }
  destruct PP as (P1 & P2 & P3).
  destruct (set_cells_good fixed s (m_ptr s) (m_size s) k _ (m_ptr s) (m_size s) B G EK LB (or_intror Logic.I) G) as [G' B'].
  assert (A' : alone (set_cells s (m_ptr s) (firstn at_ k ++ l ++ skipn (at_ + length l) k)) (m_ptr s))
    by (apply (set_cells_alone fixed); auto; congruence).
  rewrite <- E' in G', B', A'.
  split; [|split; [|split; [|split]]]; auto.
  - split; [|split]; rewrite ?P1, ?P2; auto.
  - unfold content in C |- *. rewrite EK in C. injection C as <-. rewrite P1, P2.
    destruct (m_ptr s) eqn:P.
    + destruct G as [G0 _]. rewrite G0 in *. cbn in H. destruct at_; [|lia]. destruct l; [|cbn in H; lia].
      cbn. reflexivity.
    + rewrite (CE ltac:(congruence)). f_equal. rewrite firstn_length in H. apply firstn_blit; lia.
    + rewrite (CE ltac:(congruence)). f_equal. rewrite firstn_length in H. apply firstn_blit; lia.
Qed.

Lemma store_if_content : forall fixed s c at_ l, inv fixed s -> content fixed s = Some c ->
  at_ + length l <= length c ->
  match store_if fixed s at_ l with
  | Done s' => inv fixed s' /\ m_ptr s' = m_ptr s /\ m_size s' = m_size s /\ m_freed s' = m_freed s
      /\ content fixed s' = Some (firstn at_ c ++ l ++ skipn (at_ + length l) c)
  | _ => False
  end.
Proof.
  intros fixed s c at_ l I C H. unfold store_if. destruct (is_null (m_ptr s)) eqn:N.
  - destruct (m_ptr s) eqn:P; try discriminate. repeat split; auto; try apply I.
    destruct I as (G & _). rewrite P in G. destruct G as [G0 _].
      rewrite C. unfold content in C. rewrite P in C. cbn in C. rewrite firstn_nil in C. injection C as <-.
      cbn in H. destruct at_; [|lia]. destruct l; [|cbn in H; lia]. reflexivity.
  - pose proof (store_content fixed s c at_ l I C H) as Q. exact Q.
Qed.

Lemma resize_spec : forall fixed s n preserve c, inv fixed s -> content fixed s = Some c ->
  match resize_ fixed junk avail s n preserve with
  | Done s' => inv fixed s' /\ m_size s' = n
      /\ exists c', content fixed s' = Some c' /\ length c' = n
           /\ (preserve = true -> firstn (length c) c' = firstn n c)
  | Exn s' => (preserve = true \/ fixed <> None -> s' = s) /\ Forall all_zero (m_freed s')
  | Crash => False
  end.
Proof.
  intros fixed s n preserve c I C. unfold resize_.
  pose proof (reallocate_spec fixed s n preserve c I C) as R.
  destruct (reallocate fixed junk avail s (m_ptr s) (m_size s) n preserve) as [[s' p]|s'|]; auto.
  destruct R as (R1 & R2 & R3). split; [exact R1|]. split; [reflexivity|exact R3].
Qed.

Lemma grow_spec : forall fixed s n c, inv fixed s -> content fixed s = Some c ->
  match grow fixed junk avail s n with
  | Done s' => inv fixed s'
      /\ exists c', content fixed s' = Some c' /\ length c' = Nat.max (length c) n
           /\ firstn (length c) c' = c
  | Exn s' => s' = s
  | Crash => False
  end.
Proof.
  intros fixed s n c I C. destruct (content_size fixed s I) as (c0 & C0 & L0).
  rewrite C in C0. injection C0 as <-. unfold grow.
  destruct (Nat.ltb_spec (m_size s) n).
  - pose proof (resize_spec fixed s n true c I C) as R.
    destruct (resize_ fixed junk avail s n true) as [s'|s'|]; auto.
    + destruct R as (R1 & R2 & c' & R3 & R4 & R5). split; auto. exists c'. split; auto. split; [lia|].
      rewrite (R5 eq_refl). apply firstn_all2. lia.
    + apply R. auto.
  - split; [apply inv_mark; auto|]. exists c. split; [exact C|]. split; [lia|]. apply firstn_all.
Qed.

Lemma step_spec : forall fixed s o c, inv fixed s -> content fixed s = Some c ->
  match step fixed junk avail s o with
  | Done s' => inv fixed s' /\ exists c', content fixed s' = Some c' /\ may o c c'
      /\ (~ is_set_mark o -> m_mark s = None -> m_mark s' = None)
  | Exn s' => (preserving o \/ fixed <> None -> s' = s)
              /\ Forall all_zero (m_freed s')
  | Crash => False
  end.
Proof.
  intros fixed s o c I C. destruct (content_size fixed s I) as (c0 & C0 & L0).
  rewrite C in C0. injection C0 as <-.
  assert (BZ : Forall all_zero (m_freed s)) by apply I.
  destruct o; cbn [step may preserving is_set_mark].
  - (* New *)
    pose proof (resize_spec fixed s n false c I C) as R. unfold resize_ in *.
    destruct (reallocate fixed junk avail s (m_ptr s) (m_size s) n false) as [[s' p]|s'|]; auto.
    + destruct R as (R1 & R2 & c' & R3 & R4 & _). split; auto. exists c'. auto.
    + destruct R as [R1 R2]. split; auto. intros [[]|H]. auto.
  - (* CleanNew *)
    unfold clean_new. pose proof (resize_spec fixed s n false c I C) as R.
    destruct (resize_ fixed junk avail s n false) as [s'|s'|]; cbn [bind]; auto.
    + destruct R as (R1 & R2 & c' & R3 & R4 & _).
      pose proof (store_if_content fixed s' c' 0 (repeat 0%Z (m_size s')) R1 R3) as T.
      rewrite repeat_length in T. specialize (T ltac:(lia)).
      destruct (store_if fixed s' 0 (repeat 0%Z (m_size s'))) as [s2| |]; try contradiction. cbn [bind].
      destruct T as (T1 & T2 & T3 & T4 & T5). split; [apply inv_mark; auto|].
      exists (repeat 0%Z n). split; [|split; auto].
      unfold reset_mark, set_block. rewrite content_mark, T5. f_equal.
      rewrite firstn_O, skipn_all2 by lia. rewrite app_nil_r, R2. reflexivity.
    + destruct R as [R1 R2]. split; auto. intros [[]|H]. auto.
  - (* Grow *)
    pose proof (grow_spec fixed s n c I C) as R. unfold grow in *.
    destruct (m_size s <? n) eqn:E.
    + unfold resize_ in *.
      destruct (reallocate fixed junk avail s (m_ptr s) (m_size s) n true) as [[s' p]|s'|]; auto.
      * destruct R as (R1 & c' & R3 & R4 & R5). split; auto. exists c'. split; auto. split; auto.
        apply Nat.ltb_lt in E. destruct (Nat.leb_spec n (length c)); [lia|].
        exists (skipn (length c) c'). split; [|lia]. rewrite <- R5 at 1. symmetry. apply firstn_skipn.
      * subst s'. auto.
    + destruct R as (R1 & c' & R3 & R4 & R5). split; auto. exists c'. split; auto. split; auto.
      apply Nat.ltb_ge in E. destruct (Nat.leb_spec n (length c)); [|lia].
      rewrite <- R5. symmetry. apply firstn_all2. lia.
  - (* CleanGrow *)
    unfold clean_grow. destruct (Nat.ltb_spec (m_size s) n).
    + pose proof (reallocate_spec fixed s n true c I C) as R.
      destruct (reallocate fixed junk avail s (m_ptr s) (m_size s) n true) as [[s' p]|s'|]; auto.
      * destruct R as (R1 & R2 & c' & R3 & R4 & R5). specialize (R5 eq_refl).
        rewrite R2.
        pose proof (store_content fixed (set_block s' p n) c' (m_size s) (repeat 0%Z (n - m_size s)) R1 R3) as T.
        rewrite repeat_length in T. specialize (T ltac:(lia)).
        cbn [m_ptr set_block] in T.
        assert (ST : store fixed (set_block s' p n) p (m_size s) (repeat 0%Z (n - m_size s))
            = match store fixed s' p (m_size s) (repeat 0%Z (n - m_size s)) with
              | Done x => Done (set_block x p n) | Exn x => Exn x | Crash => Crash end).
        { unfold store. replace (cells fixed (set_block s' p n) p) with (cells fixed s' p) by (destruct p; reflexivity).
          destruct (cells fixed s' p); [|reflexivity].
          match goal with |- context [if ?b then _ else _] => destruct b end; [|reflexivity].
          f_equal. destruct p; reflexivity. }
        rewrite ST in T.
        destruct (store fixed s' p (m_size s) (repeat 0%Z (n - m_size s))) as [s2| |]; try contradiction.
        cbn [bind]. destruct T as (T1 & T2 & T3 & T4 & T5). split; auto.
        eexists. split; [exact T5|]. split; auto.
        rewrite skipn_all2 by lia. rewrite app_nil_r, L0. f_equal.
        rewrite <- L0, R5. apply firstn_all2. lia.
      * destruct R as [R1 R2]. split; auto.
    + split; [apply inv_mark; auto|]. exists c. split; [exact C|]. split; auto.
      replace (n - length c) with 0 by lia. symmetry. apply app_nil_r.
  - (* Resize *)
    pose proof (resize_spec fixed s n true c I C) as R. unfold resize_ in *.
    destruct (reallocate fixed junk avail s (m_ptr s) (m_size s) n true) as [[s' p]|s'|]; auto.
    + destruct R as (R1 & R2 & c' & R3 & R4 & R5). split; auto. exists c'. auto.
    + destruct R as [R1 R2]. split; auto.
  - (* Assign *)
    unfold assign. pose proof (resize_spec fixed s (length l) false c I C) as R.
    destruct (resize_ fixed junk avail s (length l) false) as [s'|s'|]; cbn [bind]; auto.
    + destruct R as (R1 & R2 & c' & R3 & R4 & _).
      pose proof (store_if_content fixed s' c' 0 l R1 R3 ltac:(lia)) as T.
      destruct (store_if fixed s' 0 l) as [s2| |]; try contradiction. cbn [bind].
      destruct T as (T1 & T2 & T3 & T4 & T5). split; [apply inv_mark; auto|].
      exists l. split; [|split; auto].
      unfold reset_mark, set_block. rewrite content_mark, T5. f_equal.
      rewrite firstn_O, skipn_all2 by lia. rewrite app_nil_r. reflexivity.
    + destruct R as [R1 R2]. split; auto. intros [[]|H]. auto.
  - (* Append *)
    unfold append. pose proof (grow_spec fixed s (m_size s + length l) c I C) as R.
    destruct (grow fixed junk avail s (m_size s + length l)) as [s'|s'|]; cbn [bind]; auto.
    + destruct R as (R1 & c' & R3 & R4 & R5).
      pose proof (store_if_content fixed s' c' (m_size s) l R1 R3 ltac:(lia)) as T.
      destruct (store_if fixed s' (m_size s) l) as [s2| |]; try contradiction. cbn [bind].
      destruct T as (T1 & T2 & T3 & T4 & T5). split; [apply inv_mark; auto|].
      eexists. split; [|split; [reflexivity|auto]].
      unfold reset_mark, set_block. rewrite content_mark, T5. f_equal.
      rewrite skipn_all2 by lia. rewrite app_nil_r. rewrite <- L0, R5. reflexivity.
    + subst s'. auto.
  - (* AppendSelf *)
    unfold append_self. pose proof (grow_spec fixed s (m_size s * 2) c I C) as R.
    destruct (grow fixed junk avail s (m_size s * 2)) as [s'|s'|]; cbn [bind]; auto.
    + destruct R as (R1 & c' & R3 & R4 & R5).
      destruct (is_null (m_ptr s')) eqn:N.
      * destruct (content_size fixed s' R1) as (c0 & C0 & L1). rewrite R3 in C0. injection C0 as <-.
        destruct (m_ptr s') eqn:P; try discriminate.
        split; [apply (inv_mark fixed s' None R1)|].
        assert (G1 : m_size s' = 0) by (destruct R1 as (G1 & _); rewrite P in G1; apply G1).
        exists c'. split; [|split; auto].
        { exact R3. }
        assert (length c = 0) by lia. destruct c; [|discriminate]. cbn. destruct c'; [reflexivity|cbn in *; lia].
      * unfold fetch. destruct R1 as (G1 & A1 & B1).
        destruct (good_cells fixed s' _ _ B1 G1) as (k & EK & LK).
        destruct (content_size fixed s' (conj G1 (conj A1 B1))) as (c0 & C0 & L1). rewrite R3 in C0. injection C0 as <-.
        rewrite EK. cbn [Nat.add skipn].
        destruct (Nat.leb_spec (m_size s) (length k)); [|lia].
        assert (FK : firstn (m_size s) k = c).
        { unfold content in R3. rewrite EK in R3. injection R3 as R3. rewrite <- R3 in R5.
          rewrite firstn_firstn in R5. rewrite Nat.min_l, L0 in R5 by lia. exact R5. }
        rewrite FK.
        pose proof (store_content fixed s' c' (m_size s) c (conj G1 (conj A1 B1)) R3 ltac:(lia)) as T.
        destruct (store fixed s' (m_ptr s') (m_size s) c) as [s2| |]; try contradiction. cbn [bind].
        destruct T as (T1 & T2 & T3 & T4 & T5). split; [apply inv_mark; auto|].
        eexists. split; [|split; [reflexivity|auto]].
        unfold reset_mark, set_block. rewrite content_mark, T5. f_equal.
        rewrite skipn_all2 by lia. rewrite app_nil_r. rewrite <- L0, R5. reflexivity.
    + subst s'. auto.
  - (* SetMark *)
    split; [apply inv_mark; auto|]. exists c. split; [exact C|]. split; auto. intros []; exact Logic.I.
  - (* Write *)
    destruct (Nat.ltb_spec i (m_size s)).
    + pose proof (store_content fixed s c i [v] I C ltac:(cbn; lia)) as T.
      unfold store in *. destruct (cells fixed s (m_ptr s)); [|contradiction].
      match goal with |- context [if ?b then _ else _] => destruct b end; [|contradiction].
      destruct T as (T1 & T2 & T3 & T4 & T5). split; auto. eexists. split; [exact T5|]. split.
      * rewrite upd_split by lia. cbn. rewrite Nat.add_1_r. reflexivity.
      * unfold set_cells. destruct (m_ptr s); auto.
    + split; auto. exists c. split; auto. split; auto.
      clear - H L0. assert (length c <= i) by lia. clear H L0. revert i H0.
      induction c as [|x c IH]; intros [|i] H; cbn in *; auto; try lia. f_equal. apply IH. lia.
Qed.

Lemma destroy_spec : forall fixed s, inv fixed s -> m_mark s = None ->
  match destroy fixed s with
  | Done s' => Forall all_zero (m_freed s') /\ (forall j, nth j (m_heap s') None = None)
      /\ (m_ptr s = PStatic -> all_zero (firstn (m_size s) (m_stat s')))
  | _ => False
  end.
Proof.
  intros fixed s (G & A & B) M. unfold destroy. rewrite M.
  destruct (m_ptr s) eqn:P; cbn in G.
  - unfold deallocate. destruct fixed; cbn; (split; [apply B|]); (split; [intros; apply A; congruence|congruence]).
  - destruct G as ((S_ & -> & L) & _). unfold deallocate, store. cbn.
    rewrite repeat_length. rewrite (proj1 B _ eq_refl).
    destruct (Nat.leb_spec (m_size s) S_); [|lia]. cbn. split; [apply B|].
    split; [intros; apply A; congruence|].
    intros _. rewrite firstn_app, repeat_length, Nat.sub_diag, firstn_O, app_nil_r.
    rewrite firstn_all2 by (rewrite repeat_length; lia). apply all_zero_repeat.
  - destruct G as (GU & GP & l & N & L).
    destruct (heap_deallocate_spec fixed s id (m_size s) l B N L) as (s2 & E2 & Q1 & Q2 & Q3 & Q4 & Q5 & B2).
    unfold deallocate. destruct fixed; rewrite E2; (split; [apply B2|]); (split; [|congruence]);
      intros j; rewrite Q1; apply nth_upd_none; intros; apply A; congruence.
Qed.

Lemma destroy_no_crash : forall fixed s, inv fixed s -> destroy fixed s <> Crash.
Proof.
  intros fixed s (G & A & B). unfold destroy.
  set (w := match m_mark s with None => m_size s | Some k => Nat.min (m_size s) k end).
  assert (W : w <= m_size s) by (unfold w; destruct (m_mark s); lia).
  destruct (m_ptr s) eqn:P; cbn in G.
  - unfold deallocate. destruct fixed; discriminate.
  - destruct G as ((S_ & -> & L) & _). unfold deallocate, store. cbn.
    rewrite repeat_length. rewrite (proj1 B _ eq_refl).
    destruct (Nat.leb_spec w S_); [discriminate|lia].
  - destruct G as (GU & GP & l & N & L).
    assert (H : heap_deallocate fixed s (PHeap id) w <> Crash).
    { unfold heap_deallocate, store. cbn. rewrite N, repeat_length.
      destruct (Nat.leb_spec w (length l)); [|lia]. cbn.
      rewrite nth_upd_eq by (eapply nth_some_lt; eauto). discriminate. }
    unfold deallocate. destruct fixed; exact H.
Qed.

Lemma construct_spec : forall fixed arr n, (forall S_, fixed = Some S_ -> length arr = S_) ->
  match construct fixed junk avail arr n with
  | Done s => inv fixed s /\ m_size s = n /\ m_mark s = None
  | Exn s => Forall all_zero (m_freed s)
  | Crash => False
  end.
Proof.
  intros fixed arr n HA. unfold construct, allocate.
  set (s0 := mkst [] arr false PNull 0 None []).
  assert (B : base fixed s0) by (split; [exact HA|constructor]).
  pose proof (heap_allocate_spec fixed s0 n B) as HH.
  assert (HEAP : match match heap_allocate junk avail s0 n with
      | Done (s, p) => Done (set_block s p n) | Exn s => Exn s | Crash => Crash end with
      | Done s => inv fixed s /\ m_size s = n /\ m_mark s = None
      | Exn s => Forall all_zero (m_freed s) | Crash => False end).
  { destruct (heap_allocate junk avail s0 n) as [[s p]|s|]; auto.
    - destruct HH as (H1 & H2 & H3 & H4 & H5 & HP). split; [|split; reflexivity].
      assert (B1 : base fixed (set_block s p n)) by (split; cbn; [rewrite H1|rewrite H5]; apply B).
      destruct HP as [(-> & -> & H6)|(Hn & -> & l & Ll & H6)]; (split; [|split; [|exact B1]]); cbn.
      + split; auto.
      + intros j _. cbn. rewrite H6. destruct j; reflexivity.
      + split; auto. split; auto. exists l. rewrite H6. auto.
      + intros j Hj. cbn. rewrite H6. destruct j as [|[|j]]; cbn; auto. congruence.
    - subst s. constructor. }
  destruct fixed as [S_|]; [|exact HEAP].
  destruct (Nat.leb_spec n S_); cbn [andb negb s0 m_used]; [|exact HEAP].
  cbn. split; [|auto]. split; [|split]; cbn.
  - split; auto. exists S_. auto.
  - intros j _. destruct j; reflexivity.
  - exact B.
Qed.

Lemma run_spec : forall fixed l s c, inv fixed s -> content fixed s = Some c ->
  match run fixed junk avail s l with
  | Done s' => inv fixed s'
      /\ (Forall (fun o => ~ is_set_mark o) l -> m_mark s = None -> m_mark s' = None)
  | Exn s' => Forall all_zero (m_freed s')
  | Crash => False
  end.
Proof.
  intros fixed. induction l as [|o l IH]; intros s c I C; cbn [run].
  - auto.
  - pose proof (step_spec fixed s o c I C) as ST.
    destruct (step fixed junk avail s o) as [s'|s'|]; auto.
    + destruct ST as (I' & c' & C' & _ & M). specialize (IH s' c' I' C').
      destruct (run fixed junk avail s' l) as [s2|s2|]; auto. destruct IH as [I2 M2].
      split; auto. intros HF HM. apply M2; [apply (Forall_inv_tail HF)|]. apply M; auto. apply (Forall_inv HF).
    + apply ST.
Qed.
End Proofs.
